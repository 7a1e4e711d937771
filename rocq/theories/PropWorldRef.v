(** The refinement theorems on arbitrary covered histories, with examples (restated in
    Properties_WorldRef.v). *)
From Verif Require Import ReadTop ReadDfs ReadLow ReadRev ReadEr Observe PropMap PropWorld PropRead PropSeek WorldRef Refute.
From stdpp Require Import list.
Local Open Scope nat_scope.

Section Facts.
Context {V : Type} `{GoZero V}.
Notation kmap := (gmap (list nat) V).

Lemma holds_reads (b : bool) (h : heap V) (a : addr) (m : kmap) : Top.holds b (er_h h) a m -> reads_as h a m.
Proof.
  intros Hh. split.
  - intros k Hk. rewrite <- er_getFrom. by eapply holds_get.
  - intros p H1 H2 H3. destruct (holds_iterates b (er_h h) a m p Hh H1 H2 H3) as (l & Hi & Hp & Ha). exists l. split; [|split; [done|intros Hm; by apply Ha]].
    by apply (proj1 (er_iterates h _ _ _)).
  - intros p. destruct (holds_path b (er_h h) a m p Hh) as (l & Hi & Hp & Ha). exists l. split; [|split; [done|intros Hm; by apply Ha]]. by apply er_pathYields.
  - intros Hm s x. destruct (holds_minmax b (er_h h) (mkT a s x) m Hh Hm) as (k & v & k' & v' & E1 & E2 & Hr).
    exists k, v, k', v'. rewrite er_treeMinimum in E1. rewrite er_treeMaximum in E2. destruct Hr as (H3 & H4 & H5).
    split_and!; [done..|]. intros Hm'. by apply H5.
  - intros Hm. destruct (holds_lower_all b (er_h h) a m Hh Hm) as (it & l & E & Hy & Hr). exists it, l. rewrite ReadEr.er_seekLowerBound in E. split; [done|]. split; [|done].
    eapply yields_ext; [|exact Hy]. intros; by rewrite er_lowerNext.
  - intros Hm Hpf Hn k it Hk E. rewrite <- ReadEr.er_seekLowerBound in E. destruct (holds_lower b (er_h h) a m k it Hh Hm Hk Hpf Hn E) as (l & Hy & Hr). exists l. split; [|done].
    eapply yields_ext; [|exact Hy]. intros; by rewrite er_lowerNext.
  - intros Hm He. destruct (holds_reverse_all b (er_h h) a m Hh He Hm) as (l & Hy & Hr). exists l. split; [|done]. eapply yields_ext; [|exact Hy]. intros; by rewrite ReadEr.er_prev.
  - intros He p H1 H2 H3. destruct (holds_reverse b (er_h h) a m p Hh He H1 H2 H3) as (ri & l & E & Hy & Hr). exists ri, l. unfold revSeekPrefix in E. rewrite er_seekPrefix in E.
    split; [exact E|]. split; [|done]. eapply yields_ext; [|exact Hy]. intros; by rewrite ReadEr.er_prev.
  - intros Hm Ho Hn k spare ri Hk E. rewrite <- er_seekReverseLowerBound in E. destruct (holds_reverse_bound b (er_h h) a m k spare ri Hh Hm Ho Hk Hn E) as (l & Hy & Hr). exists l. split; [|done].
    eapply yields_ext; [|exact Hy]. intros; by rewrite ReadEr.er_prev.
  - intros Hm s x. destruct (holds_dfs_any b (er_h h) a m Hh Hm) as (ns & E & _ & H1 & H2). exists (shown_by h <$> ns). rewrite <- er_treeDfs. unfold treeDfs. cbn [r_root]. rewrite E. cbn [obind].
    assert (Es : forall h0 : heap V, omap id (shown_by h0 <$> ns) = shown h0 ns) by (intros h0; unfold shown; clear; induction ns as [|y ns IH]; [done|]; cbn; rewrite IH; by destruct (shown_by h0 y)).
    replace (shown_by h <$> ns) with (shown_by (er_h h) <$> ns) by (apply list_fmap_ext; intros; apply er_shown_by). rewrite Es. split; [done|]. split; [done|]. split.
    + intros k v Hin. apply H2. rewrite <- Es. apply elem_of_list_omap. by eexists.
    + intros Hn. destruct (holds_dfs b (er_h h) a m Hh Hm Hn) as (ns' & E' & _ & Hi). rewrite E in E'. injection E' as <-.
      destruct (holds_iterates b (er_h h) a m [] Hh) as (l & (it & Hs & Hy) & Hp & Ha); [constructor|done|done|]. destruct Hi as (it' & Hs' & Hy'). assert (it' = it) as -> by congruence.
      rewrite (yields_det _ _ _ _ Hy' Hy). split; [by apply pairs_with_all|intros Ho; by apply Ha].
Qed.
Lemma gstep_det (c : call V) g g1 g2 : gstep c g g1 -> gstep c g g2 -> g1 = g2.
Proof.
  assert (Htame : forall m d (o : op V) d1 d2, tame_op m d o d1 -> tame_op m d o d2 -> d1 = d2).
  { intros m d [k v|k|k] d1 d2; cbn; [| |done].
    - intros [_ [[? ->]|[? ->]]] [_ [[? ->]|[? ->]]]; done.
    - intros (_ & _ & -> & _) (_ & _ & -> & _). done. }
  assert (Ht : forall i o g1 g2, on_tree g i o g1 -> on_tree g i o g2 -> g1 = g2).
  { intros i o h1 h2. unfold on_tree. destruct (g_trees g !! i) as [[m d]|]; [|congruence]. intros (d1 & H1 & ->) (d2 & H2 & ->).
    by rewrite (Htame _ _ _ _ _ H1 H2). }
  assert (Hx : forall i o g1 g2, on_txn g i o g1 -> on_txn g i o g2 -> g1 = g2).
  { intros i o h1 h2. unfold on_txn. destruct (g_txns g !! i) as [[[m d] f]|]; [|congruence]. intros (d1 & H1 & _ & ->) (d2 & H2 & _ & ->).
    by rewrite (Htame _ _ _ _ _ H1 H2). }
  destruct c; cbn [gstep]; eauto; try congruence; intros [_ ->] [_ ->]; done.
Qed.
Lemma covered_det (cs : list (call V)) g1 g2 : covered cs g1 -> covered cs g2 -> g1 = g2.
Proof.
  intros H1. revert g2. induction H1 as [|cs g c g' Hc IH Hg]; intros g2 H2.
  - inversion H2 as [|cs' ? ? ? ? ? E]; [done|]. by destruct cs'.
  - inversion H2 as [E|cs' ga c' ? Hc' Hg' E]; [by destruct cs|]. apply app_inj_tail in E as [-> ->]. rewrite (IH _ Hc') in Hg. by eapply gstep_det.
Qed.
Lemma covered_results (cs : list (call V)) g : covered cs g -> disciplined cs -> (N.of_nat (length cs) < 2 ^ 64)%N ->
  exists rs w, exec cs w_init = (rs, w) /\ length rs = length cs /\
    forall i c gi, cs !! i = Some c -> covered (take i cs) gi -> exists r, rs !! i = Some (Ok r) /\ returns c gi r.
Proof.
  intros Hc. induction Hc as [|cs g c g' Hc IH Hg]; intros Hd Hl.
  - exists [], w_init. split; [done|]. split; [done|]. intros i c gi Hi. by rewrite lookup_nil in Hi.
  - rewrite app_length in Hl. cbn in Hl. destruct (covered_wok cs g Hc (disciplined_app_l _ _ Hd) ltac:(lia)) as (rs & w & fr & E & Wk & W & Hfr).
    destruct (IH (disciplined_app_l _ _ Hd) ltac:(lia)) as (rs' & w' & E' & Hlen & Hr). rewrite E in E'. injection E' as <- <-.
    assert (Hu : unfrozen fr [c]) by by eapply disciplined_mid.
    destruct (wok_step (length cs) c w g g' fr W) as (r & w' & E' & Hr' & Wk'); [intros j Hj; by apply (Hu 0 c j)|done|done|lia|].
    exists (rs ++ [Ok r]), w'. split; [rewrite (exec_app _ _ _ _ _ E); cbn; by rewrite E'|]. split; [rewrite !app_length; cbn; lia|].
    intros i d gi Hi Hgi. apply lookup_snoc_inv in Hi as [Hi|[-> ->]].
    + apply lookup_lt_Some in Hi as Hlt. rewrite take_app_le in Hgi by lia. destruct (Hr i d gi Hi Hgi) as (r' & Hr1 & Hr2). exists r'. split; [|done]. by apply lookup_app_l_Some.
    + rewrite take_app in Hgi. rewrite (covered_det _ _ _ Hgi Hc). exists r. split; [|done]. rewrite lookup_app_r by lia. by rewrite Hlen, Nat.sub_diag.
Qed.
Lemma undisturbed_yields {I A} (next : heap V -> I -> outcome (option A * I)) w it l n : yields (next (w_h w)) it l -> n <= S (length l) ->
  undisturbed next n w it = Ok (take n ((Some <$> l) ++ [None])).
Proof.
  intros Hy. revert n. unfold undisturbed. induction Hy as [it it' E|it x it' l E Hy IH]; intros n Hn; destruct n as [|n]; [done| |done|].
  - destruct n as [|n]; [|cbn in Hn; lia]. change (replicate 1 (@nil (call V))) with [@nil (call V)]. cbn. by rewrite E.
  - change (replicate (S n) (@nil (call V))) with (@nil (call V) :: replicate n []). cbn [interleaved exec snd]. rewrite E. cbn [obind]. cbn [length] in Hn. rewrite IH by lia. done.
Qed.
End Facts.

(** *** C47: in a covered history (any number of trees and transactions, interleaved in any way, no transaction
    updated after it was committed or cloned) no call panics and every call returns what the reference maps say. *)
Lemma C47_proof {V} `{GoZero V} (cs : list (call V)) g :
  covered cs g -> disciplined cs -> (N.of_nat (length cs) < 2 ^ 64)%N ->
  exists rs w, exec cs w_init = (rs, w) /\ length rs = length cs /\
    forall i c gi, cs !! i = Some c -> covered (take i cs) gi -> exists r, rs !! i = Some (Ok r) /\ returns c gi r.
Proof. apply covered_results. Qed.

(** *** C48: after a covered history every tree obtained so far, and every transaction, answers all its reads as its
    reference map says; Len is the size of the map plus at most the number of miscounted overwrites. *)
Lemma C48_proof {V} `{GoZero V} (cs : list (call V)) g rs w :
  covered cs g -> disciplined cs -> (N.of_nat (length cs) < 2 ^ 64)%N -> exec cs w_init = (rs, w) ->
  length (w_trees w) = length (g_trees g) /\ length (w_txns w) = length (g_txns g) /\
  (forall i t m d, w_trees w !! i = Some t -> g_trees g !! i = Some (m, d) ->
     reads_as (w_h w) (r_root t) m /\ exists x, x <= d /\ treeLen t = N.of_nat (size m + x)) /\
  (forall j t m d f, w_txns w !! j = Some t -> g_txns g !! j = Some (m, d, f) -> reads_as (w_h w) (t_root t) m).
Proof.
  intros Hc Hd Hl E. destruct (covered_wok cs g Hc Hd Hl) as (rs' & w' & fr & E' & [L1 L2 WT WX] & _). rewrite E in E'. injection E' as <- <-.
  split; [done|]. split; [done|]. split.
  - intros i t m d Hi Hg. destruct (WT i t (m, d) Hi Hg) as (x & (Hh & Hs & He) & Hx & _). split; [by eapply holds_reads|]. exists x. done.
  - intros j t m d f Hj Hg. destruct (WX j t (m, d, f) Hj Hg) as (y & (Hh & _) & _). by eapply holds_reads.
Qed.

(** *** C49: an iterator obtained in a covered history yields exactly the pairs of the tree's map at that time, whatever
    calls are made before and between its Next calls. *)
Lemma C49_proof {V} `{GoZero V} (cs : list (call V)) css g rs w i t m d p :
  covered cs g -> disciplined (cs ++ concat css) -> (N.of_nat (length cs) < 2 ^ 64)%N -> exec cs w_init = (rs, w) ->
  w_trees w !! i = Some t -> g_trees g !! i = Some (m, d) -> is_bytes p -> last p <> Some dollar -> (m = ∅ -> p <> []) ->
  exists it l, seekPrefix (w_h w) (newIter (r_root t)) p = Ok it /\ pairs_with m p l /\ (orderly m -> ascending l) /\
    (length css <= S (length l) -> interleaved iterNext css w it = Ok (take (length css) ((Some <$> l) ++ [None]))).
Proof.
  intros Hc Hd Hl E Hi Hg H1 H2 H3. destruct (C48_proof cs g rs w Hc (disciplined_app_l _ _ Hd) Hl E) as (_ & _ & HT & _).
  destruct (HT i t m d Hi Hg) as [Hr _]. destruct (ra_iter _ _ _ Hr p H1 H2 H3) as (l & (it & Hs & Hy) & Hp & Ha).
  exists it, l. split; [done|]. split; [done|]. split; [done|]. intros Hn. pose proof (undisturbed_yields iterNext w it l (length css) Hy Hn) as Eu.
  destruct (C43_proof cs css rs w i t E Hd Hi) as (H43 & _). specialize (H43 p it Hs). rewrite Eu in H43. by apply H43.
Qed.

(** *** C49, the lower bound iterator: obtained in a covered history, sought to k, it yields ascending pairs of the tree's
    map at that time, among them all not below k, whatever calls are made before and between its Next calls.  For
    prefix-free sets of keys that go on in at most 12 ways after every prefix, and seeks that return. *)
Lemma C49_lower_proof {V} `{GoZero V} (cs : list (call V)) css g rs w i t m d k it :
  covered cs g -> disciplined (cs ++ concat css) -> (N.of_nat (length cs) < 2 ^ 64)%N -> exec cs w_init = (rs, w) ->
  w_trees w !! i = Some t -> g_trees g !! i = Some (m, d) -> m <> ∅ -> prefix_free m -> narrow m -> neat m k ->
  seekLowerBound (w_h w) (newLowerIter (r_root t)) k = Ok it ->
  exists l, pairs_from m k l /\
    (length css <= S (length l) -> interleaved lowerNext css w it = Ok (take (length css) ((Some <$> l) ++ [None]))).
Proof.
  intros Hc Hd Hl E Hi Hg Hm Hpf Hn Hk Hs. destruct (C48_proof cs g rs w Hc (disciplined_app_l _ _ Hd) Hl E) as (_ & _ & HT & _).
  destruct (HT i t m d Hi Hg) as [Hr _]. destruct (ra_lower _ _ _ Hr Hm Hpf Hn k it Hk Hs) as (l & Hy & Hp).
  exists l. split; [done|]. intros Hlen. pose proof (undisturbed_yields lowerNext w it l (length css) Hy Hlen) as Eu.
  destruct (C43_proof cs css rs w i t E Hd Hi) as (_ & _ & H43 & _). specialize (H43 k it Hs). rewrite Eu in H43. by apply H43.
Qed.
(** *** C49, the reverse iterator after SeekReverseLowerBound(k): it yields the pairs of the tree's map at that time that
    are not above k, in descending order, whatever calls are made before and between its Previous calls. *)
Lemma C49_reverse_proof {V} `{GoZero V} (cs : list (call V)) css g rs w i t m d k spare ri :
  covered cs g -> disciplined (cs ++ concat css) -> (N.of_nat (length cs) < 2 ^ 64)%N -> exec cs w_init = (rs, w) ->
  w_trees w !! i = Some t -> g_trees g !! i = Some (m, d) -> m <> ∅ -> orderly m -> narrow m -> neat m k ->
  seekReverseLowerBound (w_h w) (newRevIter (r_root t)) k spare = Ok ri ->
  exists l, pairs_upto m k l /\
    (length css <= S (length l) -> interleaved prev css w ri = Ok (take (length css) ((Some <$> l) ++ [None]))).
Proof.
  intros Hc Hd Hl E Hi Hg Hm Ho Hn Hk Hs. destruct (C48_proof cs g rs w Hc (disciplined_app_l _ _ Hd) Hl E) as (_ & _ & HT & _).
  destruct (HT i t m d Hi Hg) as [Hr _]. destruct (ra_revlower _ _ _ Hr Hm Ho Hn k spare ri Hk Hs) as (l & Hy & Hp).
  exists l. split; [done|]. intros Hlen. pose proof (undisturbed_yields prev w ri l (length css) Hy Hlen) as Eu.
  destruct (C43_proof cs css rs w i t E Hd Hi) as (_ & _ & _ & H43). specialize (H43 ri ltac:(right; right; by exists k, spare)). rewrite Eu in H43. by apply H43.
Qed.

(** *** Examples *)
Notation kmapn := (gmap (list nat) nat).
Definition stepTb (g : gstate nat) (i : nat) (o : op nat) : option (gstate nat) :=
  match g_trees g !! i with
  | None => Some g
  | Some (m, d) => match tame_opb m d o with Some d' => Some (add_tree g (ref_op o m, d')) | None => None end
  end.
Definition stepXb (g : gstate nat) (j : nat) (o : op nat) : option (gstate nat) :=
  match g_txns g !! j with
  | None => Some g
  | Some (m, d, f) =>
      if f || negb (bool_decide (m = ∅)) then
        match tame_opb m d o with Some d' => Some (mkG (g_trees g) (<[j := (ref_op o m, d', false)]> (g_txns g))) | None => None end
      else None
  end.
Definition gstepb (c : call nat) (g : gstate nat) : option (gstate nat) :=
  match c with
  | CNew => Some (add_tree g (∅, 0))
  | CInsert i k v => stepTb g i (OInsert k v)
  | CDelete i k => stepTb g i (ODelete k)
  | CDeletePrefix i k => stepTb g i (ODeletePrefix k)
  | CClone i => Some (match g_trees g !! i with Some t => add_tree g t | None => g end)
  | CTxn i => Some (match g_trees g !! i with Some t => add_txn g (t, true) | None => g end)
  | CTInsert j k v => stepXb g j (OInsert k v)
  | CTDelete j k => stepXb g j (ODelete k)
  | CTDeletePrefix j k => stepXb g j (ODeletePrefix k)
  | CCommit j | CCommitOnly j => Some (match g_txns g !! j with Some x => add_tree g x.1 | None => g end)
  | CTClone j => Some (match g_txns g !! j with Some x => add_txn g (x.1, true) | None => g end)
  | CGetWatch _ k | CSeekWatch _ k | CTGetWatch _ k => if forallb (fun b => Nat.ltb b 256) k then Some g else None
  | CTrack _ _ | CNotify _ => Some g
  end.
Lemma gstepb_ok c g g' : gstepb c g = Some g' -> gstep c g g'.
Proof.
  assert (HT : forall i o, stepTb g i o = Some g' -> on_tree g i o g').
  { intros i o. unfold stepTb, on_tree. destruct (g_trees g !! i) as [[m d]|]; [|congruence]. destruct (tame_opb m d o) as [d'|] eqn:E; [|done].
    intros [= <-]. exists d'. split; [by apply tame_opb_ok|done]. }
  assert (HX : forall i o, stepXb g i o = Some g' -> on_txn g i o g').
  { intros i o. unfold stepXb, on_txn. destruct (g_txns g !! i) as [[[m d] f]|]; [|congruence]. destruct (f || _) eqn:Ef; [|done].
    destruct (tame_opb m d o) as [d'|] eqn:E; [|done]. intros [= <-]. exists d'. split; [by apply tame_opb_ok|]. split; [|done].
    intros -> _. rewrite bool_decide_eq_true_2 in Ef by done. cbn in Ef. by rewrite orb_false_r in Ef. }
  assert (HB : forall k, (if forallb (fun b => Nat.ltb b 256) k then Some g else None) = Some g' -> is_bytes k /\ g' = g).
  { intros k. destruct (forallb _ k) eqn:Ek; [|done]. intros [= <-]. split; [|done]. apply Forall_forall. intros b Hb.
    rewrite forallb_forall in Ek. apply Nat.ltb_lt, Ek. by apply elem_of_list_In. }
  destruct c; cbn [gstepb gstep]; eauto; congruence.
Qed.
Fixpoint coveredb (cs : list (call nat)) (g : gstate nat) : option (gstate nat) :=
  match cs with [] => Some g | c :: cs' => match gstepb c g with Some g' => coveredb cs' g' | None => None end end.
Lemma coveredb_ok cs0 cs g g' : covered cs0 g -> coveredb cs g = Some g' -> covered (cs0 ++ cs) g'.
Proof.
  revert cs0 g. induction cs as [|c cs IH]; intros cs0 g Hc; cbn [coveredb]; [intros [= <-]; by rewrite app_nil_r|].
  destruct (gstepb c g) as [g1|] eqn:E; [|done]. intros E2. replace (cs0 ++ c :: cs) with ((cs0 ++ [c]) ++ cs) by by rewrite <- app_assoc.
  apply (IH _ g1); [|done]. eapply covered_snoc; [exact Hc|]. by apply gstepb_ok.
Qed.
Lemma covered_start cs g : coveredb cs g_init = Some g -> covered cs g.
Proof. apply (coveredb_ok [] cs g_init g). constructor. Qed.

(** Trees 0-2 branch from one another; transaction 0 starts at tree 2 and is committed after tree 2 was updated
    elsewhere; transaction 1 is a clone that goes on after the commit; an overwrite of the shadowed key "a". *)
Definition ex_branch : list (call nat) :=
  [CNew; CInsert 0 (B "ab") 1; CInsert 1 (B "a") 2; CTxn 2; CTrack 0 true; CTInsert 0 (B "ac") 3; CInsert 2 (B "b") 9; CGetWatch 2 (B "ab");
   CTDelete 0 (B "ab"); CTInsert 0 (B "a") 5; CTGetWatch 0 (B "zz"); CTClone 0; CTInsert 1 (B "d") 6; CCommit 0; CSeekWatch 3 (B "b");
   CNotify 0; CClone 1; CInsert 1 (B "q") 7; CCommitOnly 1; CDelete 3 (B "b")].
Definition ex_branch_g : gstate nat := default g_init (coveredb ex_branch g_init).
Example ex_branch_covered : covered ex_branch ex_branch_g /\ disciplined ex_branch /\
  g_trees ex_branch_g !! 4 = Some (<[B "a" := 5]> (<[B "ac" := 3]> ∅), 1) /\
  g_trees ex_branch_g !! 2 = Some (<[B "a" := 2]> (<[B "ab" := 1]> ∅), 0) /\ length (g_trees ex_branch_g) = 9.
Proof.
  split; [|split].
  - apply covered_start. unfold ex_branch_g. destruct (coveredb ex_branch g_init) eqn:E; [done|]. vm_compute in E. discriminate.
  - apply disc_b_sound. vc.
  - split; [|split]; [refine (bool_decide_unpack _ _); vm_compute; exact Logic.I..|vm_compute; reflexivity].
Qed.
(** Seeks on the trees 6 (the keys ab, q) and 3 (the keys a, ab, b), with further calls between the Next calls. *)
Definition ex_between : list (list (call nat)) := [[CInsert 6 (B "b") 1; CDelete 6 (B "q")]; [CTxn 6; CTInsert 2 (B "qq") 4]; []].
Example ex_C49 : disciplined (ex_branch ++ concat ex_between) /\ exists t t' m m' d d' it ri, let w := (exec ex_branch w_init).2 in
  w_trees w !! 6 = Some t /\ g_trees ex_branch_g !! 6 = Some (m, d) /\ m <> ∅ /\ prefix_free m /\ narrow m /\ neat m (B "aa") /\
  seekLowerBound (w_h w) (newLowerIter (r_root t)) (B "aa") = Ok it /\
  interleaved lowerNext ex_between w it = Ok [Some (B "ab", 1); Some (B "q", 7); None] /\
  w_trees w !! 3 = Some t' /\ g_trees ex_branch_g !! 3 = Some (m', d') /\ m' <> ∅ /\ orderly m' /\ narrow m' /\ neat m' (B "ac") /\
  seekReverseLowerBound (w_h w) (newRevIter (r_root t')) (B "ac") [] = Ok ri /\
  interleaved prev ex_between w ri = Ok [Some (B "ab", 1); Some (B "a", 2); None].
Proof.
  split; [apply disc_b_sound; vc|]. do 2 eexists. exists (<[B "ab" := 1]> (<[B "q" := 7]> ∅)), (<[B "a" := 2]> (<[B "ab" := 1]> (<[B "b" := 9]> ∅))), 0, 0. do 2 eexists.
  cbv zeta. split; [vm_compute; reflexivity|]. split; [refine (bool_decide_unpack _ _); vm_compute; exact Logic.I|]. split; [by vm_compute|].
  split; [apply prefix_free_check; apply (bool_decide_unpack _); by vm_compute|]. split; [apply narrow_small; vm_compute; lia|].
  split; [apply neat_check, (bool_decide_unpack _); by vm_compute|]. split; [vm_compute; reflexivity|]. split; [vm_compute; reflexivity|].
  split; [vm_compute; reflexivity|]. split; [refine (bool_decide_unpack _ _); vm_compute; exact Logic.I|]. split; [by vm_compute|].
  split; [apply orderly_check, (bool_decide_unpack _); by vm_compute|]. split; [apply narrow_small; vm_compute; lia|].
  split; [apply neat_check, (bool_decide_unpack _); by vm_compute|]. split; [vm_compute; reflexivity|]. vm_compute; reflexivity.
Qed.
