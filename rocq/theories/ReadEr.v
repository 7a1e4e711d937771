(** The seeks of the lower-bound and reverse iterators do not read mutation channels. *)
From Verif Require Export Erase.
Local Open Scope nat_scope.

Section ReadEr.
Context {V : Type} `{GoZero V}.

Lemma er_nodeOf (h : heap V) a {B} (k : inode -> outcome B) (k' : inode -> outcome B) : (forall n, k (er_n n) = k' n) ->
  (let? n := nodeOf (er_h h) a in k n) = (let? n := nodeOf h a in k' n).
Proof. intros E. unfold nodeOf. rewrite er_lookup. destruct (h_nodes h !! a) as [n|]; [apply E|done]. Qed.
Lemma er_leafOf (h : heap V) n : leafOf (er_h h) (er_n n) = leafOf h n.
Proof. unfold leafOf. change (n_leaf (er_n n)) with (n_leaf n). destruct (n_leaf n) as [la|]; [|done]. rewrite er_lookupL. by destruct (h_leaves h !! la). Qed.
Lemma er_pushParent (h : heap V) path np par stack : pushParent (er_h h) path np par stack = pushParent h path np par stack.
Proof. unfold pushParent. destruct par as [p|]; [|done]. apply er_nodeOf. intros n. by rewrite er_leafOf. Qed.
Lemma er_pushKids (h : heap V) path np n itrs stack : pushKids (er_h h) path np (er_n n) itrs stack = pushKids h path np n itrs stack.
Proof.
  revert stack. induction itrs as [|i itrs IH]; intros stack; [done|]. cbn [pushKids]. change (getChild (er_n n)) with (getChild n). apply obind_ext.
  intros [ca|]; [|destruct np; [done|apply IH]]. apply er_nodeOf. intros cn. rewrite er_leafOf. apply obind_ext. intros cl. cbn zeta. apply IH.
Qed.
Lemma er_getLowerBoundCh n c : getLowerBoundCh (er_n n) c = getLowerBoundCh n c.
Proof.
  assert (forall l, lb48 (er_n n) l = lb48 n l) as E1 by (intros l; induction l as [|x l IH]; cbn [lb48]; [done|]; change (n_keys (er_n n)) with (n_keys n); by rewrite IH).
  assert (forall l, lb256 (er_n n) l = lb256 n l) as E2 by (intros l; induction l as [|x l IH]; cbn [lb256]; [done|]; change (n_children (er_n n)) with (n_children n); by rewrite IH).
  unfold getLowerBoundCh. rewrite E1, E2. done.
Qed.
Lemma er_lowerLoop fuel (h : heap V) path node par depth seen stack :
  lowerLoop fuel (er_h h) path node par depth seen stack = lowerLoop fuel h path node par depth seen stack.
Proof.
  revert node par depth seen stack. induction fuel as [|fuel IH]; intros node par depth seen stack; [done|]. cbn [lowerLoop].
  destruct node as [a|].
  - apply er_nodeOf. intros n. rewrite er_leafOf. apply obind_ext. intros lf. change (isLeafN (er_n n)) with (isLeafN n).
    change (takePartial (er_n n)) with (takePartial n). change (n_plen (er_n n)) with (n_plen n). apply obind_ext. intros cmp.
    rewrite er_prefixMismatch. change (n_nch (er_n n)) with (n_nch n). change (getKeyAtIdx (er_n n)) with (getKeyAtIdx n). change (getChild (er_n n)) with (getChild n).
    rewrite !er_pushParent.
    match goal with |- match _ with Eq => ?X | _ => _ end = match _ with Eq => ?Y | _ => _ end => assert (X = Y) as -> end; [|by destruct cmp, seen].
    destruct (_ && _); [done|]. apply obind_ext. intros m. destruct (_ && _); [done|]. cbn zeta. destruct (path !! _); [|done].
    rewrite er_getLowerBoundCh. apply obind_ext. intros [idx|].
    + assert (forall B (k : option (addr * bytes) -> outcome B), (let? pl := match par with None => Ok None | Some p => let? pn := nodeOf (er_h h) p in leafOf (er_h h) pn end in k pl) =
        (let? pl := match par with None => Ok None | Some p => let? pn := nodeOf h p in leafOf h pn end in k pl)) as ->.
      { intros B k. destruct par as [p|]; [|done]. f_equal. apply er_nodeOf. intros pn. apply er_leafOf. }
      apply obind_ext. intros pl. destruct (seen || _), pl as [[pla pk]|]; rewrite ?er_pushKids; [done|..]; apply obind_ext; intros st; apply obind_ext; intros k; apply obind_ext; intros ch; apply IH.
    + destruct (negb _); [done|]. rewrite er_pushKids. apply obind_ext. intros st. by rewrite er_pushParent.
  - destruct par as [p|]; [|done]. apply er_nodeOf. intros n. by rewrite er_leafOf.
Qed.
Lemma er_seekLowerBound (h : heap V) it key : seekLowerBound (er_h h) it key = seekLowerBound h it key.
Proof. unfold seekLowerBound. destruct key; [done|]. by rewrite er_lowerLoop. Qed.

Lemma er_prevLoop fuel (h : heap V) path exp stack : prevLoop fuel (er_h h) path exp stack = prevLoop fuel h path exp stack.
Proof.
  revert stack. induction fuel as [|fuel IH]; intros stack; [done|]. cbn [prevLoop].
  destruct stack as [|[[a|la]|] stack]; [done| | |done].
  - rewrite er_lookup. destruct (h_nodes h !! a) as [n|]; cbn [fmap option_fmap option_map]; [|done].
    change (iterChildren (er_n n)) with (iterChildren n). change (n_leaf (er_n n)) with (n_leaf n).
    destruct (n_leaf n) as [la|]; cbn [obind].
    + rewrite er_lookupL. destruct (h_leaves h !! _) as [l|]; cbn [fmap option_fmap option_map obind]; [|done].
      change (l_key (er_l l)) with (l_key l). destruct (bool_decide _); [apply IH|]. destruct (hasPrefix _ _); [done|apply IH].
    + destruct (bool_decide _); apply IH.
  - rewrite er_lookupL. destruct (h_leaves h !! la) as [l|]; cbn [fmap option_fmap option_map]; [|done].
    change (l_key (er_l l)) with (l_key l). destruct (bytes_leb _ _); [done|apply IH].
Qed.
Lemma er_prev (h : heap V) ri : prev (er_h h) ri = prev h ri.
Proof. unfold prev. change (walk_fuel (er_h h)) with (walk_fuel h). cbn zeta. by rewrite er_prevLoop. Qed.
Lemma er_revLoop fuel (h : heap V) key prefix spare node depth seen exp stack :
  revLoop fuel (er_h h) key prefix spare node depth seen exp stack = revLoop fuel h key prefix spare node depth seen exp stack.
Proof.
  revert node depth seen exp stack. induction fuel as [|fuel IH]; intros node depth seen exp stack; [done|]. cbn [revLoop].
  destruct node as [a|]; [|done]. apply er_nodeOf. intros n. rewrite er_leafOf. apply obind_ext. intros lf.
  change (takePartial (er_n n)) with (takePartial n). change (n_plen (er_n n)) with (n_plen n). apply obind_ext. intros part. apply obind_ext. intros cmp.
  change (isLeafN (er_n n)) with (isLeafN n).
  match goal with |- match _ with Eq => ?X | _ => _ end = match _ with Eq => ?Y | _ => _ end => assert (X = Y) as -> end; [|by destruct cmp, seen].
  cbn zeta. destruct (_ && _); [done|]. rewrite er_prefixMismatch. apply obind_ext. intros [m plen]. destruct (_ && _); [done|].
  destruct (prefix !! _); [|done]. rewrite er_getLowerBoundCh. apply obind_ext. intros idx.
  change (n_nch (er_n n)) with (n_nch n). change (getKeyAtIdx (er_n n)) with (getKeyAtIdx n). apply obind_ext. intros seen'.
  destruct (if seen' then _ else _); [|done]. change (getChild (er_n n)) with (getChild n). apply obind_ext. intros st. apply obind_ext. intros ch. apply IH.
Qed.
Lemma er_seekReverseLowerBound (h : heap V) ri key spare : seekReverseLowerBound (er_h h) ri key spare = seekReverseLowerBound h ri key spare.
Proof. unfold seekReverseLowerBound. cbn zeta. by rewrite er_revLoop. Qed.
End ReadEr.
