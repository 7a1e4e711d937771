(** The theorems on arbitrary interleavings of trees, transactions and iterators, with examples
    (restated in Properties_World.v). *)
From Verif Require Import Twin Rep Refute.
From stdpp Require Import list.
Local Open Scope nat_scope.
Local Open Scope list_scope.

(** ** Specification: an iterator whose Next calls are interleaved with other calls *)
(** Before every Next the client makes further calls; the results of the Next calls, in order. *)
Fixpoint interleaved {V} `{GoZero V} {I A} (next : heap V -> I -> outcome (option A * I)) (css : list (list (call V))) (w : world V) (it : I)
  : outcome (list (option A)) :=
  match css with
  | [] => Ok []
  | cs :: css' =>
      let w' := (exec cs w).2 in
      let? '(r, it') := next (w_h w') it in
      let? rs := interleaved next css' w' it' in
      Ok (r :: rs)
  end.
(** n calls of Next with nothing in between *)
Definition undisturbed {V} `{GoZero V} {I A} (next : heap V -> I -> outcome (option A * I)) (n : nat) (w : world V) (it : I) :=
  interleaved next (replicate n []) w it.

Section Proofs.
Context {V : Type} `{GoZero V}.

Lemma drain_frame {I A} (next : heap V -> I -> outcome (option A * I)) (P : I -> Prop) r w0 :
  (forall h' it, same r (er_h (w_h w0)) (er_h h') -> P it -> Frame.le (fun p => P p.2) (next (w_h w0) it) (next h' it)) ->
  forall css w fr it, inv w fr -> unfrozen fr (concat css) -> disciplined (concat css) ->
    same r (er_h (w_h w0)) (er_h (w_h w)) -> (exists i t, w_trees w !! i = Some t /\ r_root t = r) -> P it ->
    undisturbed next (length css) w0 it <> NoFuel -> interleaved next css w it = undisturbed next (length css) w0 it.
Proof.
  intros Hn. induction css as [|cs css IH]; intros w fr it W Hu Hd Hs (i & t & Hi & Hr) HP Hf; [done|]. cbn [concat length] in *.
  unfold undisturbed in *. change (replicate (S (length css)) (@nil (call V))) with (@nil (call V) :: replicate (length css) []) in *. cbn [interleaved exec fst snd] in *. destruct (exec cs w) as [rs w'] eqn:Ee. cbn [snd].
  assert (Hu1 : unfrozen fr cs). { intros q d j Hq. apply (Hu q d j). by apply lookup_app_l_Some. }
  destruct (exec_good cs w fr rs w' W Hu1 (disciplined_app_l _ _ Hd) Ee) as (fr' & W' & Ef & K1 & _).
  destruct (K1 i t Hi) as [Hi' Hs']. rewrite Hr in Hs'. pose proof (same_trans _ _ _ _ Hs Hs') as Hs2.
  destruct (Hn (w_h w') it Hs2 HP) as [E|[E HP']]; [by rewrite E in Hf|]. rewrite E. destruct (next (w_h w0) it) as [[x it']| |]; [|done..]. cbn [obind] in *.
  rewrite (IH w' fr' it'); [done|done| |by eapply disciplined_app_r|done|eauto|done|].
  - intros q d j Hq Hdj. rewrite Ef, (Hu (length cs + q) d j); [|by rewrite lookup_app_r, Nat.add_comm, Nat.add_sub by lia|done]. cbn.
    destruct (existsb _ cs) eqn:Ex; [|done]. exfalso. apply existsb_exists in Ex as (c & Hc & Hk). apply elem_of_list_In, elem_of_list_lookup in Hc as [p Hp].
    destruct (publishes c) as [k|] eqn:Ep; [|done]. apply Nat.eqb_eq in Hk as ->. assert (p < length cs) by by apply lookup_lt_Some in Hp.
    eapply (Hd p (length cs + q)); [lia|by apply lookup_app_l_Some| |done|done]. by rewrite lookup_app_r, Nat.add_comm, Nat.add_sub by lia.
  - intros En. apply Hf. by rewrite En.
Qed.
Lemma drain_tree {I A} (next : heap V -> I -> outcome (option A * I)) (P : I -> Prop) cs1 css rs1 w1 i t it :
  exec cs1 w_init = (rs1, w1) -> disciplined (cs1 ++ concat css) -> w_trees w1 !! i = Some t ->
  (forall h' it, same (r_root t) (er_h (w_h w1)) (er_h h') -> P it -> Frame.le (fun p => P p.2) (next (w_h w1) it) (next h' it)) -> P it ->
  undisturbed next (length css) w1 it <> NoFuel -> interleaved next css w1 it = undisturbed next (length css) w1 it.
Proof.
  intros E1 Hd Hi Hn HP Hf. destruct (exec_good cs1 _ _ _ _ inv_init ltac:(by intros ????) (disciplined_app_l _ _ Hd) E1) as (fr & W1 & Ef & _).
  eapply (drain_frame next P (r_root t) w1 Hn css w1 fr it W1); [by eapply disciplined_mid|by eapply disciplined_app_r|apply same_refl|eauto|done|done].
Qed.
End Proofs.

(** *** C41: in a history in which no transaction is updated after it was committed or cloned, no call changes
    anything that can be read from a tree obtained earlier. *)
Lemma C41_proof {V} `{GoZero V} (cs1 cs2 : list (call V)) rs1 w1 rs2 w2 i t :
  exec cs1 w_init = (rs1, w1) -> exec cs2 w1 = (rs2, w2) -> disciplined (cs1 ++ cs2) -> w_trees w1 !! i = Some t ->
  w_trees w2 !! i = Some t /\ reads_same (r_root t) (w_h w1) (w_h w2).
Proof.
  intros E1 E2 Hd Hi. destruct (exec_parts _ _ _ _ _ _ E1 E2 Hd) as [K _]. destruct (K i t Hi) as [Hi' S]. split; [done|by apply same_reads].
Qed.
(** *** C42: in such a history, calls that do not update transaction j change nothing that can be read from
    it, nor its size. *)
Lemma C42_proof {V} `{GoZero V} (cs1 cs2 : list (call V)) rs1 w1 rs2 w2 j x :
  exec cs1 w_init = (rs1, w1) -> exec cs2 w1 = (rs2, w2) -> disciplined (cs1 ++ cs2) -> w_txns w1 !! j = Some x ->
  (forall c, c ∈ cs2 -> updates c <> Some j) ->
  exists x', w_txns w2 !! j = Some x' /\ t_root x' = t_root x /\ t_size x' = t_size x /\ reads_same (t_root x) (w_h w1) (w_h w2).
Proof.
  intros E1 E2 Hd Hj Hn. destruct (exec_parts _ _ _ _ _ _ E1 E2 Hd) as [_ K]. destruct (K j Hn x Hj) as [(x' & Hx' & Ex) S].
  exists x'. split; [done|]. split; [exact (f_equal t_root Ex)|]. split; [exact (f_equal t_size Ex)|by apply same_reads].
Qed.
(** *** C43: in such a history, an iterator obtained from a tree yields what it would yield undisturbed, whatever
    calls are made between its Next calls.  (Iterator, path iterator, lower bound and reverse iterators.) *)
Lemma C43_proof {V} `{GoZero V} (cs1 : list (call V)) css rs1 w1 i t :
  exec cs1 w_init = (rs1, w1) -> disciplined (cs1 ++ concat css) -> w_trees w1 !! i = Some t ->
  (forall p it, seekPrefix (w_h w1) (newIter (r_root t)) p = Ok it ->
     returns_same (undisturbed iterNext (length css) w1 it) (interleaved iterNext css w1 it)) /\
  (forall p, returns_same (undisturbed pathNext (length css) w1 (newPathIter (r_root t) p)) (interleaved pathNext css w1 (newPathIter (r_root t) p))) /\
  (forall k it, seekLowerBound (w_h w1) (newLowerIter (r_root t)) k = Ok it ->
     returns_same (undisturbed lowerNext (length css) w1 it) (interleaved lowerNext css w1 it)) /\
  (forall ri, ri = newRevIter (r_root t) \/ (exists p, revSeekPrefix (w_h w1) (newRevIter (r_root t)) p = Ok ri) \/
     (exists k spare, seekReverseLowerBound (w_h w1) (newRevIter (r_root t)) k spare = Ok ri) ->
     returns_same (undisturbed prev (length css) w1 ri) (interleaved prev css w1 ri)).
Proof.
  intros E1 Hd Hi. set (D := reach (er_h (w_h w1)) (r_root t)).
  assert (R : D (r_root t)) by constructor. pose proof (same_refl (r_root t) (er_h (w_h w1))) as S0. split_and!.
  - intros p it E Hf. apply (drain_tree iterNext (itD D) cs1 css rs1 w1 i t it E1 Hd Hi); [| |done].
    + intros h' it1 S H1. rewrite <- (er_iterNext (w_h w1)), <- (er_iterNext h'). by apply (fr_iterNext _ _ _ S).
    + rewrite <- er_seekPrefix in E. by apply (le_Ok _ _ _ _ (fr_seekPrefix _ _ _ S0 (newIter (r_root t)) p (itD_new _ _ R)) E).
  - intros p Hf. apply (drain_tree pathNext (fun it => Forall (eD D) (pi_stack it)) cs1 css rs1 w1 i t _ E1 Hd Hi); [| |done].
    + intros h' it1 S H1. rewrite <- (er_pathNext (w_h w1)), <- (er_pathNext h'). by apply (fr_pathNext _ _ _ S).
    + by repeat constructor.
  - intros p it E Hf. apply (drain_tree lowerNext (liD D) cs1 css rs1 w1 i t it E1 Hd Hi); [| |done].
    + intros h' it1 S H1. rewrite <- (er_lowerNext (w_h w1)), <- (er_lowerNext h'). by apply (fr_lowerNext _ _ _ S).
    + rewrite <- er_seekLowerBound in E. by apply (le_Ok _ _ _ _ (fr_seekLowerBound _ _ _ S0 (newLowerIter (r_root t)) p ltac:(by split; [|constructor])) E).
  - intros ri E Hf. apply (drain_tree prev (fun r => itD D (ri_it r)) cs1 css rs1 w1 i t ri E1 Hd Hi); [| |done].
    + intros h' it1 S H1. rewrite <- (er_prev (w_h w1)), <- (er_prev h'). by apply (fr_prev _ _ _ S).
    + destruct E as [->|[(p & E)|(k & spare & E)]].
      * by apply itD_new.
      * rewrite <- er_revSeekPrefix in E. by apply (le_Ok _ _ _ _ (fr_revSeekPrefix _ _ _ S0 (newRevIter (r_root t)) p (itD_new _ _ R)) E).
      * rewrite <- er_seekReverse in E. by apply (le_Ok _ _ _ _ (fr_seekReverse _ _ _ S0 (newRevIter (r_root t)) k spare (itD_new _ _ R)) E).
Qed.

(** *** C25 (Get and LongestPrefix), on every memory whatsoever: the descent ends within len(key)+3 nodes (the key with
    its terminator has one more byte). *)
Lemma C25_partial_proof {V} `{GoZero V} (h : heap V) r k :
  search (length (getTreeKey k) + 2) h r (getTreeKey k) 0 <> NoFuel /\ getFrom h r k <> NoFuel /\ longestPrefixFrom h r k <> NoFuel.
Proof. split; [apply nf_search; lia|]. split; [apply nf_getFrom|apply nf_longestPrefix]. Qed.

(** *** C07: the code keeps this not even when the transaction that produced the tree is left alone: a clone
    shares the writable nodes of the transaction it was made from (txn.go:66-78). *)
Lemma C07_refuted_proof : exists (cs1 cs2 : list (call nat)) k i t,
  let w1 := wrun cs1 in let w2 := (exec cs2 w1).2 in
  (** tree i is made by the last call of cs1, a Commit of transaction 1, and transaction 1 is not used again *)
  (exists cs, cs1 = cs ++ [CCommit 1]) /\ length (w_trees w1) = S i /\ (forall c, c ∈ cs2 -> updates c = Some 0) /\
  w_trees w1 !! i = Some t /\ treeGet (w_h w1) t k = Ok (1, true) /\ treeGet (w_h w2) t k = Ok (9, true).
Proof.
  exists [CNew; CTxn 0; CTInsert 0 (B "ab") 1; CTInsert 0 (B "ac") 1; CTClone 0; CCommit 1], [CTInsert 0 (B "ab") 9], (B "ab"), 1. eexists.
  cbv zeta. split; [by eexists [_; _; _; _; _]|]. split; [vc|]. split; [by intros c ->%elem_of_list_singleton|]. split_and!; vc.
Qed.
(** *** C08: a transaction that is used after its Commit writes into the nodes of a transaction started from the
    committed tree. *)
Lemma C08_refuted_proof : exists (cs : list (call nat)) k v x,
  let w := wrun cs in let w' := (step (CTInsert 0 k v) w).2 in
  valid_key k /\ (forall j, CTClone j ∉ cs) /\ w_txns w !! 1 = Some x /\ w_txns w' !! 1 = Some x /\
  txnGet (w_h w) x k = Ok (1, true) /\ txnGet (w_h w') x k = Ok (9, true).
Proof.
  exists [CNew; CTxn 0; CTInsert 0 (B "ab") 1; CTInsert 0 (B "ac") 1; CCommit 0; CTxn 1], (B "ab"), 9. eexists.
  cbv zeta. split; [valid|]. split; [|split_and!; vc].
  intros j Hj. repeat (apply elem_of_cons in Hj as [Hj|Hj]; [done|]). by apply elem_of_nil in Hj.
Qed.
(** *** C40: the same for iterators. *)
Lemma C40_refuted_proof : exists (cs : list (call nat)) k v i t it,
  let w := wrun cs in valid_key k /\ w_trees w !! i = Some t /\ seekPrefix (w_h w) (newIter (r_root t)) [] = Ok it /\
  undisturbed iterNext 2 w it = Ok [Some (B "ab", 1); Some (B "ac", 1)] /\
  interleaved iterNext [[]; [CTInsert 0 k v]] w it = Ok [Some (B "ab", 1); Some (B "ac", 9)].
Proof.
  exists [CNew; CTxn 0; CTInsert 0 (B "ab") 1; CTInsert 0 (B "ac") 1; CCommit 0], (B "ac"), 9, 1. do 2 eexists.
  cbv zeta. split; [valid|]. split; [vc|]. split; [vc|]. split; [vc|]. vc.
Qed.

(** A leaf with key lk and value v hangs below r. *)
Definition stored {V} (h : heap V) (r : addr) (lk : bytes) (v : V) : Prop :=
  exists a n la l, reach h r a /\ h_nodes h !! a = Some n /\ n_leaf n = Some la /\ h_leaves h !! la = Some l /\ l_key l = lk /\ l_val l = v.
Section C38.
Context {V : Type} `{GoZero V}.
Lemma ownLeaf_stored (h : heap V) key n la : ownLeaf h key n = Ok (Some la) ->
  n_leaf n = Some la /\ exists l, h_leaves h !! la = Some l /\ l_key l = key.
Proof.
  unfold ownLeaf. destruct (n_leaf n) as [x|]; [|done]. destruct (h_leaves h !! x) as [l|] eqn:E; [|done].
  destruct (leafMatches (l_key l) key) eqn:Em; [|done]. intros [= ->]. split; [done|]. exists l. split; [done|]. by apply leafMatches_true.
Qed.
Lemma scanChildren_stored (h : heap V) key chs la : scanChildren h key chs = Ok (Some la) ->
  exists c n, Some c ∈ chs /\ h_nodes h !! c = Some n /\ n_leaf n = Some la /\ exists l, h_leaves h !! la = Some l /\ l_key l = key.
Proof.
  induction chs as [|[c|] chs IH]; cbn; intros E; [done| |].
  - destruct (h_nodes h !! c) as [n|] eqn:En; [|done]. destruct (n_leaf n) as [x|] eqn:El.
    + destruct (h_leaves h !! x) as [l|] eqn:Ex; [|done]. destruct (leafMatches (l_key l) key) eqn:Em.
      * injection E as ->. exists c, n. split; [left|]. split; [done|]. split; [done|]. exists l. split; [done|]. by apply leafMatches_true.
      * destruct (IH E) as (c' & n' & Hc & ?). exists c', n'. split; [by right|done].
    + destruct (IH E) as (c' & n' & Hc & ?). exists c', n'. split; [by right|done].
  - destruct (IH E) as (c' & n' & Hc & ?). exists c', n'. split; [by right|done].
Qed.
Lemma search_stored (h : heap V) r key : forall fuel a depth la, search fuel h a key depth = Ok (Found la) -> reach h r a ->
  exists b n, reach h r b /\ h_nodes h !! b = Some n /\ n_leaf n = Some la /\ exists l, h_leaves h !! la = Some l /\ l_key l = key.
Proof.
  induction fuel as [|fuel IH]; intros a depth la E Hr; [done|]. cbn [search] in E. destruct (h_nodes h !! a) as [n|] eqn:En; [|done].
  assert (Hexit : searchExit h key a n = Ok (Found la) -> exists b n, reach h r b /\ h_nodes h !! b = Some n /\ n_leaf n = Some la /\ exists l, h_leaves h !! la = Some l /\ l_key l = key).
  { unfold searchExit. destruct (ownLeaf h key n) as [[x|]| |] eqn:Eo; cbn [obind]; [| |done..].
    - intros [= ->]. apply ownLeaf_stored in Eo as (E1 & E2). by exists a, n.
    - destruct (scanChildren h key (n_children n)) as [[x|]| |] eqn:Es; cbn [obind]; [|done..]. intros [= ->].
      apply scanChildren_stored in Es as (c & cn & Hc & Hcn & E1 & E2). exists c, cn. split; [|done].
      eapply reach_step; [exact Hr|exact En|by left]. }
  destruct (if isLeafN n then ownLeaf h key n else Ok None) as [[x|]| |] eqn:Ee; cbn [obind] in E; [| |done..].
  - destruct (isLeafN n); [|done]. injection E as ->. apply ownLeaf_stored in Ee as (E1 & E2). by exists a, n.
  - destruct (if Nat.ltb 0 (n_plen n) then _ else _) as [pl| |]; cbn [obind] in E; [|done..].
    destruct (Nat.ltb 0 (n_plen n) && _); [by apply Hexit|]. destruct (key !! _) as [c|]; [|by apply Hexit].
    destruct (findChild n c) as [[[ca|] i]| |] eqn:Ef; cbn [obind] in E; [|by apply Hexit|done..].
    eapply IH; [exact E|]. eapply reach_step; [exact Hr|exact En|left].
    apply (P_findChild (fun o => match o with Some x => Some x ∈ n_children n | None => True end) Logic.I _ _ _ _ Ef).
    apply Forall_forall. by intros [x|] Hx.
Qed.
End C38.
(** *** C38: on every memory whatsoever, a value returned by Get is stored below the root in a leaf with exactly
    that key (and its terminator). *)
Lemma C38_proof {V} `{GoZero V} (h : heap V) r k v : getFrom h r k = Ok (v, true) -> stored h r (k ++ [dollar]) v.
Proof.
  unfold getFrom. destruct (search _ h r _ 0) as [[la|a]| |] eqn:E; cbn [obind]; [|done..].
  apply (search_stored h r) in E as (b & n & Hb & Hn & Hl & l & Hla & Hk); [|constructor]. rewrite Hla. intros [= <-].
  by exists b, n, la, l.
Qed.

(** *** C15: false of memories with a leaf whose key has no terminator (which no call builds). *)
Lemma C15_refuted_proof : exists (h : heap nat) root p k v, Forall (fun b => b <> dollar) p /\
  iterates h root p [(k, v)] /\ has_prefix k p = false.
Proof.
  exists (mkH {[0 := set_leaf (zero_node K4) (Some 1)]} {[1 := mkL 1 7 (B "a") None]} 2 0 []), 0, (B "a"). do 2 eexists.
  split; [by repeat constructor|]. split; [apply collect_iterates; vc|vc].
Qed.
(** Leaf keys are empty or end in the terminator. *)
Definition terminated {V} (h : heap V) : Prop := forall x l, h_leaves h !! x = Some l -> l_key l = [] \/ exists k, l_key l = k ++ [dollar].
Section C15.
Context {V : Type} `{GoZero V}.
Lemma prefix_snoc_inv (p k : bytes) x : p `prefix_of` k ++ [x] -> p = k ++ [x] \/ p `prefix_of` k.
Proof.
  intros [s Hs]. destruct s as [|y s _] using rev_ind; [rewrite app_nil_r in Hs; by left|]. right.
  rewrite app_assoc in Hs. apply app_inj_tail in Hs as [-> _]. by exists s.
Qed.
Lemma getKey_prefix (h : heap V) p x l : terminated h -> last p <> Some dollar -> h_leaves h !! x = Some l -> hasPrefix (l_key l) p = true ->
  p `prefix_of` getKey (l_key l).
Proof.
  intros Ht Hp Hl Hh. rewrite hasPrefix_has in Hh. apply has_prefix_true in Hh. destruct (Ht x l Hl) as [E|[k E]]; rewrite E in *.
  - by apply prefix_nil_inv in Hh as ->.
  - rewrite getKey_snoc. apply prefix_snoc_inv in Hh as [->|Hh]; [|done]. by rewrite last_snoc in Hp.
Qed.
Lemma nextLoop_prefix (h : heap V) p : terminated h -> last p <> Some dollar -> forall fuel st k v st',
  nextLoop fuel h p st = Ok (Some (k, v), st') -> p `prefix_of` k.
Proof.
  intros Ht Hp. induction fuel as [|fuel IH]; intros st k v st' E; [done|]. cbn [nextLoop] in E.
  destruct st as [|[[a|la]|] st]; [done| | |done].
  - destruct (h_nodes h !! a) as [n|]; [|done]. destruct (n_leaf n) as [la|]; [|by eapply IH].
    destruct (h_leaves h !! la) as [l|] eqn:El; [|done]. destruct (hasPrefix (l_key l) p) eqn:Eh; [|by eapply IH].
    injection E as <- _ _. by eapply getKey_prefix.
  - destruct (h_leaves h !! la) as [l|] eqn:El; [|done]. destruct (hasPrefix (l_key l) p) eqn:Eh.
    + destruct (negb _ && _); cbn [andb] in E; [|by eapply IH]. injection E as <- _ _. by eapply getKey_prefix.
    + rewrite andb_false_r in E. by eapply IH.
Qed.
End C15.
(** *** C15, on every memory in which leaf keys are empty or end in the terminator, for prefixes that do not end
    in '$'. *)
Lemma C15_partial_proof {V} `{GoZero V} (h : heap V) root p it l : terminated h -> last p <> Some dollar ->
  seekPrefix h (newIter root) p = Ok it -> (forall it' k v it'', it_path it' = p -> iterNext h it' = Ok (Some (k, v), it'') -> p `prefix_of` k /\ it_path it'' = p) /\
  (yields (iterNext h) it l -> Forall (fun kv => p `prefix_of` kv.1) l).
Proof.
  intros Ht Hp Es. assert (H1 : forall it' k v it'', it_path it' = p -> iterNext h it' = Ok (Some (k, v), it'') -> p `prefix_of` k /\ it_path it'' = p).
  { intros it' k v it'' <- E. unfold iterNext in E. destruct (nextLoop _ _ _ _) as [[r st]| |] eqn:En; cbn [obind] in E; [|done..].
    injection E as -> <-. split; [by eapply nextLoop_prefix|done]. }
  split; [done|]. assert (Hpath : it_path it = p). { unfold seekPrefix in Es. cbn in Es. destruct (seekLoop _ _ _ _ _); [|done..]. by injection Es as <-. }
  clear Es. intros Hy. induction Hy as [|it [k v] it' l E Hy IH]; [constructor|]. destruct (H1 _ _ _ _ Hpath E) as [E1 E2].
  constructor; [done|by apply IH].
Qed.

Section C35.
Context {V : Type} `{GoZero V}.
Lemma yields_ext {I A} (f g : I -> outcome (option A * I)) it l : (forall it, f it = g it) -> yields f it l -> yields g it l.
Proof. intros E Hy. induction Hy; [eapply yields_nil|eapply yields_cons]; [by rewrite <- E|by rewrite <- E|done]. Qed.
Lemma er_iterates (h : heap V) r p l : iterates (er_h h) r p l <-> iterates h r p l.
Proof.
  split; intros (it & E & Hy); exists it; (split; [by rewrite er_seekPrefix in *|]); (eapply yields_ext; [|exact Hy]); intros; by rewrite er_iterNext.
Qed.
Lemma er_pathYields (h : heap V) r p l : yields (pathNext (er_h h)) (newPathIter r p) l <-> yields (pathNext h) (newPathIter r p) l.
Proof. split; apply yields_ext; intros; by rewrite er_pathNext. Qed.
Ltac splitp Hs E1 E2 := pose proof (f_equal fst Hs) as E1; pose proof (f_equal snd Hs) as E2; clear Hs; cbn [fst snd omapo] in E1, E2; unfold id in E1.
Lemma clone_inv (w : world V) i t r w1 : w_trees w !! i = Some t -> step (CClone i) w = (Ok r, w1) ->
  exists a n, w_trees w1 = w_trees w ++ [mkT a (r_size t) (r_max t)] /\ h_nodes (er_h (w_h w)) !! r_root t = Some n /\
    h_nodes (er_h (w_h w1)) !! a = Some (set_partial n (clonePartial (n_partial n))).
Proof.
  intros Hi E. cbn [step] in E. unfold withTree in E. rewrite Hi in E. unfold onHeap in E. pose proof (hsim_cloneTree t (w_h w)) as Hs.
  unfold ecloneTree, ecloneN, bind, hloadN in Hs. destruct (h_nodes (er_h (w_h w)) !! r_root t) as [n|] eqn:En.
  - unfold hallocN, ret in Hs. destruct (cloneTree t (w_h w)) as [[t'| |] h1]; splitp Hs E1 E2; try done.
    pose proof (f_equal (fun o => match o with Ok x => x | _ => t' end) E1) as Et. cbn beta iota in Et. subst t'. splitp E F1 F2. subst w1.
    exists (h_next (er_h (w_h w))), n. cbn [w_trees w_h]. split; [done|]. split; [done|]. rewrite E2. cbn [h_nodes]. by rewrite lookup_insert.
  - destruct (cloneTree t (w_h w)) as [[t'| |] h1]; splitp Hs E1 E2; try done.
Qed.
End C35.
(** *** C35: a clone has the length of the tree and answers alike (whenever the read on the tree returns), and
    no later call changes this, in histories in which no transaction is updated after it was committed or cloned. *)
Lemma C35_proof {V} `{GoZero V} (cs cs2 : list (call V)) rs w i t r w1 rs2 w2 :
  exec cs w_init = (rs, w) -> w_trees w !! i = Some t -> step (CClone i) w = (Ok r, w1) -> exec cs2 w1 = (rs2, w2) ->
  disciplined (cs ++ [CClone i] ++ cs2) ->
  exists t', w_trees w1 = w_trees w ++ [t'] /\ treeLen t' = treeLen t /\
    (** in the memory right after the call, and at any later time *)
    forall h, h = w_h w1 \/ h = w_h w2 ->
      (forall k x, treeGet h t k = Ok x -> treeGet h t' k = Ok x) /\
      (forall k x, treeLongestPrefix h t k = Ok x -> treeLongestPrefix h t' k = Ok x) /\
      treeMinimum h t' = treeMinimum h t /\ treeMaximum h t' = treeMaximum h t /\
      (forall p l, iterates h (r_root t) p l -> iterates h (r_root t') p l) /\
      (forall p l, yields (pathNext h) (newPathIter (r_root t) p) l -> yields (pathNext h) (newPathIter (r_root t') p) l) /\
      reads_same (r_root t) (w_h w) h /\ reads_same (r_root t') (w_h w1) h.
Proof.
  intros E Hi Ec E2 Hd. destruct (clone_inv _ _ _ _ _ Hi Ec) as (a & n & Ht1 & Hn & Ha).
  set (t' := mkT a (r_size t) (r_max t)) in *. exists t'. split; [done|]. split; [done|].
  assert (E1 : exec [CClone i] w = ([Ok r], w1)). { cbn [exec]. by rewrite Ec. }
  destruct (exec_parts cs [CClone i] _ _ _ _ E E1) as [K1 _]. { apply (disciplined_app_l _ cs2). by rewrite <- app_assoc. }
  assert (E1' : exec (cs ++ [CClone i]) w_init = (rs ++ [Ok r], w1)). { rewrite (exec_app _ _ _ _ _ E), E1. done. }
  destruct (exec_parts (cs ++ [CClone i]) cs2 _ _ _ _ E1' E2) as [K2 _]; [by rewrite <- app_assoc|].
  destruct (K1 i t Hi) as [Hi1 S1]. destruct (K2 i t Hi1) as [_ S2].
  assert (Hi1' : w_trees w1 !! length (w_trees w) = Some t') by (by rewrite Ht1, lookup_app_r, Nat.sub_diag by lia).
  destruct (K2 _ _ Hi1') as [_ S2']. cbn [r_root t'] in S2'.
  assert (HH : forall h, h = w_h w1 \/ h = w_h w2 -> same (r_root t) (er_h (w_h w)) (er_h h) /\ same a (er_h (w_h w1)) (er_h h)).
  { intros h [->| ->]; [split; [done|apply same_refl]|]. split; [by eapply same_trans|done]. }
  intros h Hh. destruct (HH h Hh) as [Sa Sb].
  assert (Na : h_nodes (er_h h) !! r_root t = Some n) by (rewrite (ag_nd _ _ _ Sa _ (reach_refl _ _)); exact Hn).
  assert (Nb : h_nodes (er_h h) !! a = Some (set_partial n (clonePartial (n_partial n)))) by (rewrite (ag_nd _ _ _ Sb _ (reach_refl _ _)); exact Ha).
  unfold treeGet, treeLongestPrefix. cbn [r_root t']. split_and!.
  - intros k x. rewrite <- !(er_getFrom h). apply (tw_get _ _ _ _ Na Nb).
  - intros k x. rewrite <- !(er_longestPrefixFrom h). apply (tw_longest _ _ _ _ Na Nb).
  - rewrite <- !(er_treeMinimum h). unfold treeMinimum. cbn [r_root t']. by rewrite (tw_min _ _ _ _ Na Nb).
  - rewrite <- !(er_treeMaximum h). unfold treeMaximum. cbn [r_root t']. by rewrite (tw_max _ _ _ _ Na Nb).
  - intros p l. rewrite <- !(er_iterates h). apply (tw_iterates _ _ _ _ Na Nb).
  - intros p l. rewrite <- !(er_pathYields h). apply (tw_path _ _ _ _ Na Nb).
  - by apply same_reads.
  - by apply same_reads.
Qed.

(** ** Cases that meet the hypotheses *)
(** Two lines of trees and three transactions, with all kinds of updates; transaction 0 is committed before
    the second part and left alone, 1 and 2 go on. *)
Definition ex1 : list (call nat) :=
  [CNew; CTxn 0; CTInsert 0 (B "ab") 1; CTInsert 0 (B "ac") 2; CTInsert 0 (B "a") 3; CCommit 0; CTxn 1; CTInsert 1 (B "ab") 4; CTxn 1; CInsert 1 (B "b") 5].
Definition ex2 : list (call nat) :=
  [CTDelete 1 (B "ac"); CTInsert 2 (B "ab") 7; CDelete 1 (B "a"); CTDeletePrefix 1 (B "a"); CCommit 1; CDeletePrefix 2 (B "a"); CClone 1; CTClone 2].
Fixpoint disc_b {V} (cs : list (call V)) : bool :=
  match cs with
  | [] => true
  | c :: cs' => match publishes c with Some j => forallb (fun d => negb (bool_decide (updates d = Some j))) cs' | None => true end && disc_b cs'
  end.
Lemma disc_b_sound {V} (cs : list (call V)) : disc_b cs = true -> disciplined cs.
Proof.
  induction cs as [|e cs IH]; intros Hb p q c d j Hpq Hp Hq Hc Hd; [done|]. cbn in Hb. apply andb_true_iff in Hb as [Hb1 Hb2].
  destruct q as [|q]; [lia|]. cbn in Hq. destruct p as [|p].
  - injection Hp as ->. rewrite Hc in Hb1. rewrite forallb_forall in Hb1. specialize (Hb1 d). rewrite bool_decide_eq_true_2 in Hb1 by done.
    discriminate Hb1. apply elem_of_list_In. by eapply elem_of_list_lookup_2.
  - cbn in Hp. by apply (IH Hb2 p q c d j); [lia|..].
Qed.
Example ex_disciplined : disciplined (ex1 ++ ex2).
Proof. apply disc_b_sound. vc. Qed.
(** C41 and C42 apply to ex1, ex2: tree 1 = {ab, ac, a} and transaction 2 = {ab, ac, a} with ab overwritten by ex2 *)
Example ex_world : exists t x, let w1 := wrun ex1 in let w2 := (exec ex2 w1).2 in
  w_trees w1 !! 1 = Some t /\ treeGet (w_h w1) t (B "ab") = Ok (1, true) /\ treeGet (w_h w2) t (B "ab") = Ok (1, true) /\
  treeGet (w_h w2) t (B "ac") = Ok (2, true) /\
  w_txns w1 !! 1 = Some x /\ txnGet (w_h w1) x (B "ab") = Ok (4, true) /\ treeLen t = 3%N /\ length (w_trees w2) = 7.
Proof. do 2 eexists. cbv zeta. split; [vc|]. split; [vc|]. split; [vc|]. split; [vc|]. split; [vc|]. split; [vc|]. split; vc. Qed.
(** C43: an iterator of tree 1 whose Next calls are interleaved with updates *)
Example ex_drain : exists t it, let w1 := wrun ex1 in
  w_trees w1 !! 1 = Some t /\ seekPrefix (w_h w1) (newIter (r_root t)) (B "a") = Ok it /\
  interleaved iterNext [[CTInsert 2 (B "ab") 7]; ex2; [CDelete 1 (B "ab")]; []] w1 it = Ok [Some (B "a", 3); Some (B "ab", 1); Some (B "ac", 2); None].
Proof. do 2 eexists. cbv zeta. split; [vc|]. split; [vc|]. vc. Qed.
(** C38, C15: a memory with stored keys *)
Example ex_get : exists t, w_trees (wrun ex1) !! 1 = Some t /\ getFrom (w_h (wrun ex1)) (r_root t) (B "ac") = Ok (2, true).
Proof. eexists. split; vc. Qed.
Definition terminated_b {V} (h : heap V) : bool :=
  forallb (fun xl => match rev (l_key xl.2) with [] => true | b :: _ => Nat.eqb b dollar end) (map_to_list (h_leaves h)).
Lemma terminated_b_sound {V} (h : heap V) : terminated_b h = true -> terminated h.
Proof.
  intros Hb x l Hx. unfold terminated_b in Hb. rewrite forallb_forall in Hb. specialize (Hb (x, l)). cbn in Hb.
  rewrite <- elem_of_list_In, elem_of_map_to_list in Hb. specialize (Hb Hx).
  destruct (l_key l) as [|b k _] using rev_ind; [by left|]. right. rewrite rev_unit in Hb. apply Nat.eqb_eq in Hb as ->. eauto.
Qed.
Example ex_iter : exists t, let h := w_h (wrun ex1) in w_trees (wrun ex1) !! 1 = Some t /\ terminated h /\ last (B "ab") <> Some dollar /\
  iterates h (r_root t) (B "ab") [(B "ab", 1)].
Proof. eexists. cbv zeta. split; [vc|]. split; [apply terminated_b_sound; vc|]. split; [done|]. apply collect_iterates. vc. Qed.
(** C35: tree 2 of ex1 is cloned, then both it and its clone are updated *)
Example ex_clone : disciplined (ex1 ++ [CClone 2] ++ [CInsert 2 (B "zz") 8; CDelete 3 (B "b")]) /\ exists t' t, let w1 := wrun (ex1 ++ [CClone 2]) in
  w_trees w1 !! 3 = Some t' /\ w_trees w1 !! 2 = Some t /\ t' <> t /\ treeLen t' = 4%N /\ treeGet (w_h w1) t' (B "b") = Ok (5, true) /\
  (step (CClone 2) (wrun ex1)).1 = Ok RUnit.
Proof. split; [apply disc_b_sound; vc|]. do 2 eexists. cbv zeta. split; [vc|]. split; [vc|]. split; [vm_compute; congruence|]. split; [vc|]. split; vc. Qed.
