(** What a client can observe of a tree, and what the invariant says about it. *)
From Verif Require Export WorldInv.
From stdpp Require Import list.
Local Open Scope nat_scope.

(** ** More reads on the channel-free memory *)
Section Er3.
Context {V : Type} `{GoZero V}.
Implicit Types h : heap V.
Lemma er_nodeOf h a : nodeOf (er_h h) a = omapo er_n (nodeOf h a).
Proof. unfold nodeOf. rewrite er_lookup. by destruct (h_nodes h !! a). Qed.
Lemma er_leafOf h n : leafOf (er_h h) (er_n n) = leafOf h n.
Proof. unfold leafOf. change (n_leaf (er_n n)) with (n_leaf n). destruct (n_leaf n) as [la|]; [|done]. rewrite er_lookupL. by destruct (h_leaves h !! la). Qed.
Lemma er_pushParent h path np p st : pushParent (er_h h) path np p st = pushParent h path np p st.
Proof. unfold pushParent. destruct p as [p|]; [|done]. rewrite er_nodeOf, obind_omapo. apply obind_ext. intros n. by rewrite er_leafOf. Qed.
Lemma er_pushKids h path np n is_ st : pushKids (er_h h) path np (er_n n) is_ st = pushKids h path np n is_ st.
Proof.
  revert st. induction is_ as [|i is_ IH]; intros st; [done|]. cbn [pushKids]. rewrite er_getChild. apply obind_ext. intros [c|]; [|destruct np; [done|apply IH]].
  rewrite er_nodeOf, obind_omapo. apply obind_ext. intros cn. rewrite er_leafOf. apply obind_ext. intros cl. apply IH.
Qed.
Lemma er_getLowerBoundCh n c : getLowerBoundCh (er_n n) c = getLowerBoundCh n c.
Proof.
  unfold getLowerBoundCh. change (n_kind (er_n n)) with (n_kind n). destruct (n_kind n); [done..| |]; generalize (seq c (256 - c)) as l; induction l as [|i l IH]; [done| |done|]; cbn.
  - apply obind_ext. intros k. destruct (Nat.eqb k 0); [done|]. change (getChild (er_n n)) with (getChild n). apply obind_ext. intros [ch|]; [done|exact IH].
  - change (getChild (er_n n)) with (getChild n). apply obind_ext. intros [ch|]; [done|exact IH].
Qed.
Lemma er_prevLoop f h path exp st : prevLoop f (er_h h) path exp st = prevLoop f h path exp st.
Proof.
  revert st. induction f as [|f IH]; intros st; [done|]. cbn [prevLoop]. destruct st as [|[[a|la]|] st]; [done| | |done].
  - rewrite er_lookup. destruct (h_nodes h !! a) as [n|]; cbn [fmap option_fmap option_map]; [|done].
    change (iterChildren (er_n n)) with (iterChildren n). change (n_leaf (er_n n)) with (n_leaf n).
    destruct (n_leaf n) as [la|]; cbn [obind].
    + rewrite er_lookupL. destruct (h_leaves h !! la) as [l|]; cbn [fmap option_fmap option_map obind]; [|done].
      change (l_key (er_l l)) with (l_key l). change (l_val (er_l l)) with (l_val l).
      destruct (bool_decide _); [apply IH|]. destruct (hasPrefix _ _); [done|apply IH].
    + destruct (bool_decide _); apply IH.
  - rewrite er_lookupL. destruct (h_leaves h !! la) as [l|]; cbn [fmap option_fmap option_map]; [|done].
    change (l_key (er_l l)) with (l_key l). destruct (bytes_leb _ _); [done|apply IH].
Qed.
Lemma er_prev h ri : prev (er_h h) ri = prev h ri.
Proof. unfold prev. change (walk_fuel (er_h h)) with (walk_fuel h). by rewrite er_prevLoop. Qed.
Lemma er_lowerLoop f h path node parent depth seen st :
  lowerLoop f (er_h h) path node parent depth seen st = lowerLoop f h path node parent depth seen st.
Proof.
  revert node parent depth seen st. induction f as [|f IH]; intros node parent depth seen st; [done|]. cbn [lowerLoop].
  destruct node as [a|].
  2:{ destruct parent as [p|]; [|done]. rewrite er_nodeOf, obind_omapo. apply obind_ext. intros pn. by rewrite er_leafOf. }
  rewrite er_nodeOf, obind_omapo. apply obind_ext. intros n. rewrite er_leafOf. apply obind_ext. intros lf.
  change (isLeafN (er_n n)) with (isLeafN n). change (takePartial (er_n n)) with (takePartial n). change (n_plen (er_n n)) with (n_plen n).
  change (n_nch (er_n n)) with (n_nch n).
  apply obind_ext. intros cmp. rewrite !er_pushParent. cbn zeta. rewrite er_prefixMismatch.
  match goal with |- match cmp with Eq => ?m | Lt => _ | Gt => _ end = match cmp with Eq => ?m' | Lt => _ | Gt => _ end => cut (m = m') end.
  { intros E. destruct cmp; [exact E| |]; destruct seen; done || exact E. }
  destruct (_ && _); [done|]. apply obind_ext. intros m. destruct (_ && negb seen); [done|]. destruct (path !! _) as [c|]; [|done].
  rewrite er_getLowerBoundCh. apply obind_ext. intros [idx|].
  - match goal with |- obind ?o _ = obind ?o' _ => assert (Eo : o = o') end.
    { destruct parent as [p|]; [|done]. rewrite er_nodeOf, obind_omapo. apply obind_ext. intros pn. by rewrite er_leafOf. }
    rewrite Eo. apply obind_ext. intros pl. rewrite !er_pushKids.
    assert (K : forall b c' s', (let? k := getKeyAtIdx (er_n n) b in let? ch := getChild (er_n n) b in lowerLoop f (er_h h) path ch (Some a) (depth + n_plen n + 1) (c' || negb (Nat.eqb k c)) s')
       = (let? k := getKeyAtIdx n b in let? ch := getChild n b in lowerLoop f h path ch (Some a) (depth + n_plen n + 1) (c' || negb (Nat.eqb k c)) s')).
    { intros b c' s'. rewrite er_getKeyAtIdx. apply obind_ext. intros k. rewrite er_getChild. apply obind_ext. intros ch. apply IH. }
    destruct (seen || Nat.ltb 0 m); [destruct pl as [[pla pk]|]|]; [done|..]; apply obind_ext; intros st1; apply K.
  - destruct (negb _); [done|]. rewrite er_pushKids. apply obind_ext. intros st1. by rewrite er_pushParent.
Qed.
Lemma er_seekLowerBound h it key : seekLowerBound (er_h h) it key = seekLowerBound h it key.
Proof. unfold seekLowerBound. destruct key; [done|]. by rewrite er_lowerLoop. Qed.
Lemma er_revLoop f h key prefix spare node depth seen exp st :
  revLoop f (er_h h) key prefix spare node depth seen exp st = revLoop f h key prefix spare node depth seen exp st.
Proof.
  revert node depth seen exp st. induction f as [|f IH]; intros node depth seen exp st; [done|]. cbn [revLoop].
  destruct node as [a|]; [|done]. rewrite er_nodeOf, obind_omapo. apply obind_ext. intros n. rewrite er_leafOf. apply obind_ext. intros lf.
  change (isLeafN (er_n n)) with (isLeafN n). change (takePartial (er_n n)) with (takePartial n). change (n_plen (er_n n)) with (n_plen n).
  change (n_nch (er_n n)) with (n_nch n).
  apply obind_ext. intros part. apply obind_ext. intros cmp. cbn zeta. rewrite er_prefixMismatch.
  match goal with |- match cmp with Eq => ?m | Lt => _ | Gt => _ end = match cmp with Eq => ?m' | Lt => _ | Gt => _ end => cut (m = m') end.
  { intros E. destruct cmp; [exact E|done|]; destruct seen; done || exact E. }
  destruct (isLeafN n && _); [done|]. apply obind_ext. intros [m plen]. destruct (_ && (_ && _)); [done|]. destruct (prefix !! _) as [c|]; [|done].
  rewrite er_getLowerBoundCh. apply obind_ext. intros idx. change (getKeyAtIdx (er_n n)) with (getKeyAtIdx n). apply obind_ext. intros seen1.
  destruct (if seen1 then _ else _) as [i|]; [|done]. change (getChild (er_n n)) with (getChild n). apply obind_ext. intros st1. apply obind_ext. intros ch. apply IH.
Qed.
Lemma er_seekReverse h ri key spare : seekReverseLowerBound (er_h h) ri key spare = seekReverseLowerBound h ri key spare.
Proof. unfold seekReverseLowerBound. by rewrite er_revLoop. Qed.
Lemma er_revSeekPrefix h ri p : revSeekPrefix (er_h h) ri p = revSeekPrefix h ri p.
Proof. unfold revSeekPrefix. by rewrite er_seekPrefix. Qed.
Lemma er_recursiveWalk {B} (fn : bytes -> V -> B -> B * bool) f h a acc : recursiveWalk fn f (er_h h) a acc = recursiveWalk fn f h a acc.
Proof.
  revert a acc. induction f as [|f IH]; intros a acc; [done|]. cbn [recursiveWalk]. rewrite er_lookup.
  destruct (h_nodes h !! a) as [n|]; cbn [fmap option_fmap option_map]; [|done]. change (isLeafN (er_n n)) with (isLeafN n). change (n_leaf (er_n n)) with (n_leaf n).
  change (n_children (er_n n)) with (n_children n).
  match goal with |- obind ?o _ = obind ?o' _ => assert (Eo : o = o') end.
  { destruct (isLeafN n); [|done]. destruct (n_leaf n) as [la|]; [|done]. rewrite er_lookupL. by destruct (h_leaves h !! la). }
  rewrite Eo. apply obind_ext. intros [acc1 stop]. destruct stop; [done|]. generalize (n_children n) as cs. intros cs. revert acc1.
  induction cs as [|[c|] cs IHc]; intros acc1; [done| |apply IHc]. rewrite IH. apply obind_ext. intros [acc2 stop]. destruct stop; [done|apply IHc].
Qed.
Lemma er_treeWalk {B} (fn : bytes -> V -> B -> B * bool) h t acc : treeWalk fn (er_h h) t acc = treeWalk fn h t acc.
Proof. unfold treeWalk. change (walk_fuel (er_h h)) with (walk_fuel h). by rewrite er_recursiveWalk. Qed.
Lemma er_dfsNode f h a : dfsNode f (er_h h) a = dfsNode f h a.
Proof.
  revert a. induction f as [|f IH]; intros a; [done|]. cbn [dfsNode]. rewrite er_lookup. destruct (h_nodes h !! a) as [n|]; cbn [fmap option_fmap option_map]; [|done].
  change (getChild (er_n n)) with (getChild n). change (n_nch (er_n n)) with (n_nch n).
  match goal with |- obind ?o _ = obind ?o' _ => assert (Eo : o = o'); [|by rewrite Eo] end.
  generalize (seq 0 (n_nch n)) as is_. induction is_ as [|i is_ IHi]; [done|]. apply obind_ext. intros [c|]; [|exact IHi]. rewrite IH. apply obind_ext. intros l1. by rewrite IHi.
Qed.
Lemma er_shown_by h a : shown_by (er_h h) a = shown_by h a.
Proof.
  unfold shown_by. rewrite er_lookup. destruct (h_nodes h !! a) as [n|]; [|done]. cbn. destruct (n_leaf n) as [la|]; [|done]. cbn. rewrite lookup_fmap. by destruct (h_leaves h !! la).
Qed.
Lemma er_treeDfs h t : treeDfs (er_h h) t = treeDfs h t.
Proof.
  unfold treeDfs. change (walk_fuel (er_h h)) with (walk_fuel h). rewrite er_dfsNode. apply obind_ext. intros ns. f_equal. apply list_fmap_ext. intros i x _. apply er_shown_by.
Qed.
End Er3.

(** ** Get and LongestPrefix always terminate *)
Section NoFuel.
Context {V : Type} `{GoZero V}.
Implicit Types h : heap V.
Lemma nf_bind {A B} (o : outcome A) (k : A -> outcome B) : o <> NoFuel -> (forall a, o = Ok a -> k a <> NoFuel) -> obind o k <> NoFuel.
Proof. intros Ho Hk. destruct o; cbn; [by apply Hk|done|done]. Qed.
Lemma nf_checkPrefix p l k d : checkPrefix p l k d <> NoFuel.
Proof.
  unfold checkPrefix. generalize ((l `min` maxPrefixLen) `min` (length k - d)) at 2 as m. generalize ((l `min` maxPrefixLen) `min` (length k - d)) as f. generalize 0 as i.
  intros i f. revert i. induction f as [|f IH]; intros i m; [done|]. cbn [cmp_loop]. destruct (Nat.ltb i m); [|done]. destruct (p !! i); [|done]. destruct (k !! _); [|done]. destruct (Nat.eqb _ _); [apply IH|done].
Qed.
Lemma nf_getChild n i : getChild n i <> NoFuel.
Proof. unfold getChild. repeat case_match; done. Qed.
Lemma nf_getKeyAtIdx n i : getKeyAtIdx n i <> NoFuel.
Proof. unfold getKeyAtIdx. repeat case_match; done. Qed.
Lemma nf_findChild n b : findChild n b <> NoFuel.
Proof.
  unfold findChild. destruct (n_kind n).
  1,2: destruct (_ && _); [|done]; apply nf_bind; [apply nf_getChild|done].
  - apply nf_bind; [apply nf_getKeyAtIdx|]. intros i _. destruct (Nat.eqb i 0); [done|]. apply nf_bind; [apply nf_getChild|done].
  - apply nf_bind; [apply nf_getChild|]. by intros [?|] _.
Qed.
Lemma nf_ownLeaf h k n : ownLeaf h k n <> NoFuel.
Proof. unfold ownLeaf. repeat case_match; done. Qed.
Lemma nf_scanChildren h k cs : scanChildren h k cs <> NoFuel.
Proof. induction cs as [|[c|] cs IH]; [done| |done]. cbn [scanChildren]. repeat case_match; done. Qed.
Lemma nf_searchExit h k a n : searchExit h k a n <> NoFuel.
Proof.
  unfold searchExit. apply nf_bind; [apply nf_ownLeaf|]. intros [la|] _; [done|]. apply nf_bind; [apply nf_scanChildren|]. by intros [?|] _.
Qed.
Lemma nf_search f h a key depth : 1 <= f -> length key + 1 <= f + depth -> search f h a key depth <> NoFuel.
Proof.
  revert a depth. induction f as [|f IH]; intros a depth Hf Hl; [lia|]. cbn [search]. destruct (h_nodes h !! a) as [n|]; [|done].
  apply nf_bind. { destruct (isLeafN n); [apply nf_ownLeaf|done]. } intros [la|] _; [done|].
  apply nf_bind. { destruct (Nat.ltb 0 _); [apply nf_checkPrefix|done]. } intros pl _. destruct (_ && _); [apply nf_searchExit|].
  destruct (key !! (depth + n_plen n)) as [c|] eqn:Ek; [|apply nf_searchExit]. apply lookup_lt_Some in Ek.
  apply nf_bind; [apply nf_findChild|]. intros [[ca|] i] _; [|apply nf_searchExit]. apply IH; lia.
Qed.
Lemma nf_getFrom h r k : getFrom h r k <> NoFuel.
Proof.
  unfold getFrom. apply nf_bind; [apply nf_search; unfold search_fuel; lia|]. intros [la|a] _; [|done]. by destruct (h_leaves h !! la).
Qed.
Lemma nf_lpScan h k l cs : lpScan h k l cs <> NoFuel.
Proof. revert l. induction cs as [|[c|] cs IH]; intros l; [done| |apply IH]. cbn [lpScan]. repeat case_match; try done; apply IH. Qed.
Lemma nf_lpLoop f h a key depth l : 1 <= f -> length key + 1 <= f + depth -> lpLoop f h a key depth l <> NoFuel.
Proof.
  revert a depth l. induction f as [|f IH]; intros a depth l Hf Hl; [lia|]. cbn [lpLoop]. destruct (h_nodes h !! a) as [n|]; [|done].
  apply nf_bind. { destruct (Nat.ltb 0 _); [apply nf_checkPrefix|done]. } intros pl _. destruct (_ && _); [done|].
  destruct (key !! (depth + n_plen n)) as [c|] eqn:Ek; [|done]. apply lookup_lt_Some in Ek.
  apply nf_bind. { repeat case_match; done. } intros l1 _. apply nf_bind; [apply nf_lpScan|]. intros l2 _.
  apply nf_bind; [apply nf_findChild|]. intros [[ca|] i] _; [|done]. apply IH; lia.
Qed.
Lemma nf_longestPrefix h r k : longestPrefixFrom h r k <> NoFuel.
Proof.
  unfold longestPrefixFrom. destruct (h_nodes h !! r) as [n|]; [|done]. apply nf_bind; [apply nf_lpLoop; unfold search_fuel; lia|].
  intros [la|] _; [|done]. by destruct (h_leaves h !! la).
Qed.
End NoFuel.

(** ** Specification: observations *)
Section Obs.
Context {V : Type} `{GoZero V}.
Implicit Types h : heap V.

(** A read that returns (or panics) in h does the same in h'.  (NoFuel is a read that never returns.) *)
Definition returns_same {A} (o o' : outcome A) : Prop := o <> NoFuel -> o' = o.

(** Everything a client can read below a root is the same in h' as in h. *)
Record reads_same (r : addr) h h' : Prop := mk_reads {
  rs_get : forall k, getFrom h' r k = getFrom h r k;
  rs_longest : forall k, longestPrefixFrom h' r k = longestPrefixFrom h r k;
  rs_min : forall s m, returns_same (treeMinimum h (mkT r s m)) (treeMinimum h' (mkT r s m));
  rs_max : forall s m, returns_same (treeMaximum h (mkT r s m)) (treeMaximum h' (mkT r s m));
  rs_walk : forall {B} (fn : bytes -> V -> B -> B * bool) s m acc, returns_same (treeWalk fn h (mkT r s m) acc) (treeWalk fn h' (mkT r s m) acc);
  rs_dfs : forall s m, returns_same (treeDfs h (mkT r s m)) (treeDfs h' (mkT r s m));
  rs_nodes : returns_same (dfsNode (walk_fuel h) h r) (dfsNode (walk_fuel h') h' r);
  rs_iter : forall p l, iterates h r p l -> iterates h' r p l;
  rs_path : forall p l, yields (pathNext h) (newPathIter r p) l -> yields (pathNext h') (newPathIter r p) l;
  rs_lower : forall k it l, seekLowerBound h (newLowerIter r) k = Ok it -> yields (lowerNext h) it l ->
     seekLowerBound h' (newLowerIter r) k = Ok it /\ yields (lowerNext h') it l;
  rs_reverse : forall l, yields (prev h) (newRevIter r) l -> yields (prev h') (newRevIter r) l;
  rs_revprefix : forall p ri l, revSeekPrefix h (newRevIter r) p = Ok ri -> yields (prev h) ri l ->
     revSeekPrefix h' (newRevIter r) p = Ok ri /\ yields (prev h') ri l;
  rs_revlower : forall k spare ri l, seekReverseLowerBound h (newRevIter r) k spare = Ok ri -> yields (prev h) ri l ->
     seekReverseLowerBound h' (newRevIter r) k spare = Ok ri /\ yields (prev h') ri l }.

Lemma le_returns {A} (P : A -> Prop) o o' : Frame.le P o o' -> returns_same o o'.
Proof. intros [->|[-> _]]; [by intros ?|by intros _]. Qed.
Lemma le_total {A} (P : A -> Prop) o o' : Frame.le P o o' -> o <> NoFuel -> o' = o.
Proof. by intros [?|[? _]]. Qed.
Lemma le_Ok {A} (P : A -> Prop) o o' a : Frame.le P o o' -> o = Ok a -> o' = Ok a /\ P a.
Proof. intros [->|[-> Hp]] E; [done|]. rewrite E in Hp |- *. done. Qed.

Lemma same_reads r h h' : same r (er_h h) (er_h h') -> reads_same r h h'.
Proof.
  intros A. assert (R : reach (er_h h) r r) by constructor. split.
  - intros k. rewrite <- (er_getFrom h), <- (er_getFrom h'). eapply le_total; [by apply (fr_getFrom _ _ _ A)|apply nf_getFrom].
  - intros k. rewrite <- (er_longestPrefixFrom h), <- (er_longestPrefixFrom h'). eapply le_total; [by apply (fr_longestPrefix _ _ _ A)|apply nf_longestPrefix].
  - intros s m. rewrite <- (er_treeMinimum h), <- (er_treeMinimum h'). eapply le_returns. by apply (fr_treeMinimum _ _ _ A).
  - intros s m. rewrite <- (er_treeMaximum h), <- (er_treeMaximum h'). eapply le_returns. by apply (fr_treeMaximum _ _ _ A).
  - intros B fn s m acc. rewrite <- (er_treeWalk fn h), <- (er_treeWalk fn h'). eapply le_returns. by apply (fr_treeWalk _ _ _ A).
  - intros s m. rewrite <- (er_treeDfs h), <- (er_treeDfs h'). eapply le_returns. by apply (fr_treeDfs _ _ _ A).
  - destruct (walk_le _ _ _ A) as [d E]. change (walk_fuel (er_h h')) with (walk_fuel h') in E. change (walk_fuel (er_h h)) with (walk_fuel h) in E.
    rewrite <- (er_dfsNode _ h), <- (er_dfsNode _ h'), E. eapply le_returns. by apply (fr_dfsNode _ _ _ A).
  - intros p l (it & E & Hy). rewrite <- er_seekPrefix in E.
    destruct (le_Ok _ _ _ _ (fr_seekPrefix _ _ _ A (newIter r) p (itD_new _ _ R)) E) as [E' HI]. exists it. rewrite er_seekPrefix in E'. split; [done|].
    eapply (fr_yields (itD (reach (er_h h) r))); [|exact HI|exact Hy]. intros it1 H1. rewrite <- (er_iterNext h), <- (er_iterNext h'). by apply (fr_iterNext _ _ _ A).
  - intros p l Hy. eapply (fr_yields (fun it => Forall (eD (reach (er_h h) r)) (pi_stack it))); [| |exact Hy].
    + intros it1 H1. rewrite <- (er_pathNext h), <- (er_pathNext h'). by apply (fr_pathNext _ _ _ A).
    + by repeat constructor.
  - intros k it l E Hy. rewrite <- er_seekLowerBound in E.
    destruct (le_Ok _ _ _ _ (fr_seekLowerBound _ _ _ A (newLowerIter r) k ltac:(by split; [|constructor])) E) as [E' HI]. rewrite er_seekLowerBound in E'. split; [done|].
    eapply (fr_yields (liD (reach (er_h h) r))); [|exact HI|exact Hy]. intros it1 H1. rewrite <- (er_lowerNext h), <- (er_lowerNext h'). by apply (fr_lowerNext _ _ _ A).
  - intros l Hy. eapply (fr_yields (fun ri => itD (reach (er_h h) r) (ri_it ri))); [| |exact Hy].
    + intros it1 H1. rewrite <- (er_prev h), <- (er_prev h'). by apply (fr_prev _ _ _ A).
    + by apply itD_new.
  - intros p ri l E Hy. rewrite <- er_revSeekPrefix in E.
    destruct (le_Ok _ _ _ _ (fr_revSeekPrefix _ _ _ A (newRevIter r) p (itD_new _ _ R)) E) as [E' HI]. rewrite er_revSeekPrefix in E'. split; [done|].
    eapply (fr_yields (fun ri => itD (reach (er_h h) r) (ri_it ri))); [|exact HI|exact Hy]. intros it1 H1. rewrite <- (er_prev h), <- (er_prev h'). by apply (fr_prev _ _ _ A).
  - intros k spare ri l E Hy. rewrite <- er_seekReverse in E.
    destruct (le_Ok _ _ _ _ (fr_seekReverse _ _ _ A (newRevIter r) k spare (itD_new _ _ R)) E) as [E' HI]. rewrite er_seekReverse in E'. split; [done|].
    eapply (fr_yields (fun ri => itD (reach (er_h h) r) (ri_it ri))); [|exact HI|exact Hy]. intros it1 H1. rewrite <- (er_prev h), <- (er_prev h'). by apply (fr_prev _ _ _ A).
Qed.

(** ** Histories *)
Lemma exec_app cs1 cs2 (w : world V) rs1 w1 : exec cs1 w = (rs1, w1) -> exec (cs1 ++ cs2) w = (let '(rs2, w2) := exec cs2 w1 in (rs1 ++ rs2, w2)).
Proof.
  revert w rs1. induction cs1 as [|c cs1 IH]; intros w rs1 E.
  - injection E as <- <-. cbn. by destruct (exec cs2 w).
  - cbn in E |- *. destruct (step c w) as [r w']. destruct (exec cs1 w') as [rs w''] eqn:E1. injection E as <- <-. rewrite (IH _ _ E1). by destruct (exec cs2 w'').
Qed.
Lemma keeps_tree_trans (w1 w2 w3 : world V) : keeps_tree w1 w2 -> keeps_tree w2 w3 -> keeps_tree w1 w3.
Proof. intros A B i t Hi. destruct (A i t Hi) as [E1 S1]. destruct (B i t E1) as [E2 S2]. split; [done|by eapply same_trans]. Qed.
Lemma keeps_txn_trans (w1 w2 w3 : world V) j : keeps_txn w1 w2 j -> keeps_txn w2 w3 j -> keeps_txn w1 w3 j.
Proof.
  intros A B x Hj. destruct (A x Hj) as [(x' & E1 & F1) S1]. destruct (B x' E1) as [(x'' & E2 & F2) S2]. split; [exists x''; split; [done|congruence]|].
  eapply same_trans; [done|]. assert (Er : t_root x' = t_root x) by exact (f_equal t_root F1). by rewrite Er in S2.
Qed.
Definition unfrozen (fr : nat -> bool) (cs : list (call V)) : Prop :=
  forall q d j, cs !! q = Some d -> updates d = Some j -> fr j = false.
Lemma exec_good cs : forall (w : world V) fr rs w', inv w fr -> unfrozen fr cs -> disciplined cs -> exec cs w = (rs, w') ->
  exists fr', inv w' fr' /\ (forall j, fr' j = fr j || existsb (fun c => match publishes c with Some k => Nat.eqb k j | None => false end) cs) /\
    keeps_tree w w' /\ (forall j, (forall c, c ∈ cs -> updates c <> Some j) -> keeps_txn w w' j).
Proof.
  induction cs as [|c cs IH]; intros w fr rs w' W Hu Hd E.
  - injection E as <- <-. exists fr. split; [done|]. split; [intros; by rewrite orb_false_r|]. split.
    + intros i t Hi. split; [done|apply same_refl].
    + intros j _ x Hj. split; [eauto|apply same_refl].
  - cbn in E. destruct (step c w) as [r w1] eqn:Es. destruct (exec cs w1) as [rs1 w2] eqn:Ee. injection E as <- <-.
    destruct (step_good c w fr r w1 W (fun j => Hu 0 c j eq_refl) Es) as (W1 & K1 & K2).
    destruct (IH w1 (frozen c fr) rs1 w2 W1) as (fr' & W' & Hf & K3 & K4); [..|done|].
    + intros q d j Hq Hdj. unfold frozen. rewrite (Hu (S q) d j Hq Hdj). cbn. destruct (publishes c) as [k|] eqn:Hp; [|done].
      destruct (Nat.eqb_spec k j) as [->|]; [|done]. exfalso. by apply (Hd 0 (S q) c d j ltac:(lia) eq_refl Hq Hp).
    + intros p q c1 d j Hpq Hp Hq. apply (Hd (S p) (S q)); [lia|done..].
    + exists fr'. split; [done|]. split; [|split].
      * intros j. rewrite Hf. unfold frozen. cbn [existsb]. by rewrite orb_assoc.
      * by eapply keeps_tree_trans.
      * intros j Hj. eapply keeps_txn_trans; [apply K2; apply Hj; left|apply K4]. intros c' Hc'. apply Hj. by right.
Qed.
Lemma inv_init : inv (w_init (V:=V)) (fun _ => false).
Proof. split; [done|by intros [?|?]..]. Qed.
Lemma disciplined_app_l (cs1 cs2 : list (call V)) : disciplined (cs1 ++ cs2) -> disciplined cs1.
Proof. intros Hd p q c d j Hpq Hp Hq. apply (Hd p q); [done|by apply lookup_app_l_Some..]. Qed.
Lemma disciplined_app_r (cs1 cs2 : list (call V)) : disciplined (cs1 ++ cs2) -> disciplined cs2.
Proof.
  intros Hd p q c d j Hpq Hp Hq. apply (Hd (length cs1 + p) (length cs1 + q)); [lia|by rewrite lookup_app_r, Nat.add_comm, Nat.add_sub by lia..].
Qed.
Lemma disciplined_mid (cs1 cs2 : list (call V)) fr : disciplined (cs1 ++ cs2) ->
  (forall j, fr j = existsb (fun c => match publishes c with Some k => Nat.eqb k j | None => false end) cs1) -> unfrozen fr cs2.
Proof.
  intros Hd Hf q d j Hq Hu. rewrite Hf. destruct (existsb _ _) eqn:Ee; [|done]. exfalso. apply existsb_exists in Ee as (c & Hc & Hk).
  apply elem_of_list_In, elem_of_list_lookup in Hc as [p Hp]. destruct (publishes c) as [k|] eqn:Ep; [|done]. apply Nat.eqb_eq in Hk as ->.
  assert (Hpl : p < length cs1) by by apply lookup_lt_Some in Hp.
  eapply (Hd p (length cs1 + q)); [lia|by apply lookup_app_l_Some| |done|done]. by rewrite lookup_app_r, Nat.add_comm, Nat.add_sub by lia.
Qed.
(** The invariant and the frame, for two consecutive parts of a disciplined history. *)
Lemma exec_parts cs1 cs2 rs1 w1 rs2 w2 : exec cs1 (w_init (V:=V)) = (rs1, w1) -> exec cs2 w1 = (rs2, w2) -> disciplined (cs1 ++ cs2) ->
  keeps_tree w1 w2 /\ (forall j, (forall c, c ∈ cs2 -> updates c <> Some j) -> keeps_txn w1 w2 j).
Proof.
  intros E1 E2 Hd. destruct (exec_good cs1 _ _ _ _ inv_init ltac:(by intros ????) (disciplined_app_l _ _ Hd) E1) as (fr & W1 & Hf & _).
  destruct (exec_good cs2 _ _ _ _ W1 (disciplined_mid _ _ _ Hd Hf) (disciplined_app_r _ _ Hd) E2) as (_ & _ & _ & K). exact K.
Qed.
End Obs.
