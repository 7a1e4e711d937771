(** The depth of the recursions of Insert, Delete and SeekPrefix, on every memory. *)
From Verif Require Export Observe.
Local Open Scope nat_scope.

Section Fuel.
Context {V : Type} `{GoZero V}.
Notation TM := (M (st V)).

Lemma bind_ext {S A B} (m : M S A) (k1 k2 : A -> M S B) s : (forall a s', m s = (Ok a, s') -> k1 a s' = k2 a s') -> bind m k1 s = bind m k2 s.
Proof. intros Hk. unfold bind. destruct (m s) as [[a| |] s']; [|done..]. by apply Hk. Qed.
Lemma bind_ext_l {S A B} (m1 m2 : M S A) (k : A -> M S B) s : m1 s = m2 s -> bind m1 k s = bind m2 k s.
Proof. intros E. unfold bind. by rewrite E. Qed.
Lemma byteAt_Ok (key : bytes) i (s : st V) c s' : byteAt key i s = (Ok c, s') -> i < length key.
Proof. unfold byteAt. destruct (key !! i) eqn:E; [|done]. intros _. by apply lookup_lt_Some in E. Qed.

Lemma insert_fuel_irrel key v : forall d f1 f2 node depth (s : st V), length key - depth <= d -> 2 * d + 2 <= f1 -> 2 * d + 2 <= f2 ->
  recursiveInsert f1 node key v depth s = recursiveInsert f2 node key v depth s.
Proof.
  assert (Hin : forall d, (forall f1 f2 node depth (s : st V), length key - depth < d -> 2 * d <= f1 -> 2 * d <= f2 ->
      recursiveInsert f1 node key v depth s = recursiveInsert f2 node key v depth s) ->
    forall f1 f2 node depth (s : st V), length key - depth <= d -> 2 * d + 1 <= f1 -> 2 * d + 1 <= f2 ->
      insertInner f1 node key v depth s = insertInner f2 node key v depth s).
  { intros d IH [|f1] [|f2] node depth s Hd H1 H2; [lia..|]. cbn [insertInner]. apply bind_ext. intros n s1 _. destruct (Nat.ltb 0 (n_plen n)).
    - apply bind_ext. intros h s2 _. apply bind_ext. intros pd s3 _. destruct (Nat.leb (n_plen n) pd); [|done].
      apply bind_ext. intros [[child|] idx] s4 E; [|done]. apply bind_ext_l. 
      assert (depth + n_plen n < length key). { destruct (Nat.ltb_spec (depth + n_plen n) (length key)); [done|]. done. }
      apply IH; lia.
    - apply bind_ext. intros c s2 Ec. apply byteAt_Ok in Ec. apply bind_ext. intros [[child|] idx] s4 E; [|done]. apply bind_ext_l. apply IH; lia. }
  induction d as [|d IH]; (intros [|f1] [|f2] node depth s Hd H1 H2; [lia..|]); cbn [recursiveInsert].
  all: apply bind_ext; intros t s1 _; destruct (_ =? _)%N; [done|]; apply bind_ext; intros n s2 _; destruct (n_leaf n) as [la|].
  all: try (apply bind_ext; intros nl s3 _; destruct (isLeafN n); [done|]; destruct (leafMatches _ _); [done|]).
  1,2: apply (Hin 0); [intros; lia|lia..].
  1,2: apply (Hin (S d)); [intros; apply IH; lia|lia..].
Qed.
Lemma delete_fuel_irrel key : forall f1 f2 node depth (s : st V), length key - depth < f1 -> length key - depth < f2 ->
  recursiveDelete f1 node key depth s = recursiveDelete f2 node key depth s.
Proof.
  induction f1 as [|f1 IH]; intros [|f2] node depth s H1 H2; [lia..|]. cbn [recursiveDelete]. destruct node as [node|]; [|done].
  apply bind_ext. intros n s1 _. apply bind_ext. intros [] s2 _. destruct (_ && _); [done|]. apply bind_ext. intros [hit|] s3 _; [done|].
  apply bind_ext. intros [] s4 _; [done|]. apply bind_ext. intros c s5 Ec. apply byteAt_Ok in Ec. apply bind_ext. intros [[child|] idx] s6 _; [|done].
  apply bind_ext_l. apply IH; lia.
Qed.
Lemma obind_ext' {A B} (o : outcome A) (k1 k2 : A -> outcome B) : (forall a, o = Ok a -> k1 a = k2 a) -> obind o k1 = obind o k2.
Proof. intros Hk. destruct o; [by apply Hk|done..]. Qed.
Lemma seek_fuel_irrel (h : heap V) p : forall f1 f2 a depth, length p - depth < f1 -> length p - depth < f2 ->
  seekLoop f1 h a p depth = seekLoop f2 h a p depth.
Proof.
  induction f1 as [|f1 IH]; intros [|f2] a depth H1 H2; [lia..|]. cbn [seekLoop]. destruct (h_nodes h !! a) as [n|]; [|done].
  apply obind_ext'. intros [stop d'] E. destruct stop; [done|]. destruct (p !! d') as [c|] eqn:Ec; [|done]. apply lookup_lt_Some in Ec.
  assert (depth <= d').
  { destruct (_ && _); [|by injection E as <-]. destruct (prefixMismatch _ _ _ _ _) as [m| |]; [|done..]. cbn in E. destruct (Nat.ltb _ _); [done|]. injection E as <-. lia. }
  apply obind_ext'. intros [[ca|] idx] _; [|done]. apply IH; lia.
Qed.
Lemma search_fuel_irrel (h : heap V) key : forall f1 f2 a depth, length key - depth < f1 -> length key - depth < f2 ->
  search f1 h a key depth = search f2 h a key depth.
Proof.
  induction f1 as [|f1 IH]; intros [|f2] a depth H1 H2; [lia..|]. cbn [search]. destruct (h_nodes h !! a) as [n|]; [|done].
  apply obind_ext'. intros [la|] _; [done|]. apply obind_ext'. intros pl _. destruct (_ && _); [done|].
  destruct (key !! (depth + n_plen n)) as [c|] eqn:Ec; [|done]. apply lookup_lt_Some in Ec. apply obind_ext'. intros [[ca|] i] _; [|done]. apply IH; lia.
Qed.

(** Programs that never run out of fuel. *)
Definition nfm {S A} (m : M S A) : Prop := forall s, (m s).1 <> NoFuel.
Lemma nfm_bind {S A B} (m : M S A) (k : A -> M S B) : nfm m -> (forall a, nfm (k a)) -> nfm (bind m k).
Proof. intros Hm Hk s. unfold bind. specialize (Hm s). destruct (m s) as [[a| |] s']; cbn in *; [apply Hk|done..]. Qed.
Lemma nfm_ret {S A} (a : A) : nfm (S:=S) (ret a).
Proof. done. Qed.
Lemma nfm_panic {S A} : nfm (S:=S) (A:=A) panic.
Proof. done. Qed.
Lemma nfm_lift {S A} (o : outcome A) : o <> NoFuel -> nfm (S:=S) (lift o).
Proof. intros Ho s. by destruct o. Qed.
Lemma nfm_ok {S A} (f : S -> A) (g : S -> S) : nfm (fun s => (Ok (f s), g s)).
Proof. done. Qed.
Lemma nfm_liftH {A} (m : M (heap V) A) : nfm m -> nfm (liftH m).
Proof. intros Hm s. specialize (Hm (s_h s)). unfold liftH. by destruct (m (s_h s)) as [[]]. Qed.
Lemma nfm_getT : nfm (getT (V:=V)). Proof. done. Qed.
Lemma nfm_getH : nfm (getH (V:=V)). Proof. done. Qed.
Lemma nfm_putT t : nfm (putT (V:=V) t). Proof. done. Qed.
Lemma nfm_byteAt k i : nfm (S:=st V) (byteAt k i).
Proof. unfold byteAt. by destruct (k !! i). Qed.
Lemma nfm_loadN a : nfm (loadN (V:=V) a).
Proof. intros s. unfold loadN, liftH, hloadN. by destruct (h_nodes (s_h s) !! a). Qed.
Lemma nfm_loadL a : nfm (loadL (V:=V) a).
Proof. intros s. unfold loadL, liftH, hloadL. by destruct (h_leaves (s_h s) !! a). Qed.
Lemma nfm_storeN a n : nfm (storeN (V:=V) a n). Proof. done. Qed.
Lemma nfm_storeL a n : nfm (storeL (V:=V) a n). Proof. done. Qed.
Lemma nfm_updN a f : (forall n, f n <> NoFuel) -> nfm (updN (V:=V) a f).
Proof. intros Hf. unfold updN. apply nfm_bind; [apply nfm_loadN|]. intros n. apply nfm_bind; [by apply nfm_lift|]. intros n'. apply nfm_storeN. Qed.
Hint Resolve nfm_ret nfm_panic nfm_getT nfm_getH nfm_putT nfm_byteAt nfm_loadN nfm_loadL nfm_storeN nfm_storeL nfm_ok nf_checkPrefix nf_findChild : nfdb.
Ltac nfs :=
  repeat first
    [ solve [auto with nfdb]
    | match goal with
      | |- nfm (bind _ _) => apply nfm_bind; [|intros ?]
      | |- nfm (if ?b then _ else _) => destruct b
      | |- nfm (match ?x with _ => _ end) => destruct x
      | |- nfm (liftH _) => apply nfm_liftH
      | |- nfm (lift _) => apply nfm_lift
      | |- nfm (updN _ _) => apply nfm_updN; intros ?
      end ].
Ltac nfo :=
  repeat first
    [ solve [auto with nfdb]
    | done
    | match goal with
      | |- obind _ _ <> NoFuel => apply nf_bind; [|intros ? _]
      | |- (if ?b then _ else _) <> NoFuel => destruct b
      | |- (match ?x with _ => _ end) <> NoFuel => destruct x
      end ].
Lemma nf_getChild n i : getChild n i <> NoFuel.
Proof. unfold getChild. nfo. Qed.
Lemma nf_getKeyAtIdx n i : getKeyAtIdx n i <> NoFuel.
Proof. unfold getKeyAtIdx. nfo. Qed.
Lemma nf_setKeyAtIdx n i b : setKeyAtIdx n i b <> NoFuel.
Proof. unfold setKeyAtIdx. nfo. Qed.
Lemma nf_setChildN n i b : setChildN n i b <> NoFuel.
Proof. unfold setChildN. nfo. Qed.
Lemma nf_copyHeader n m : copyHeader n m <> NoFuel.
Proof. unfold copyHeader. nfo. Qed.
Hint Resolve nf_getChild nf_getKeyAtIdx nf_setKeyAtIdx nf_setChildN nf_copyHeader : nfdb.
Lemma nf_mergePrefix n m : mergePrefix n m <> NoFuel.
Proof. unfold mergePrefix. nfo. Qed.
Lemma nf_removeSorted n c : removeSorted n c <> NoFuel.
Proof. unfold removeSorted. nfo. Qed.
Hint Resolve nf_mergePrefix nf_removeSorted : nfdb.
Lemma nf_fill16 l : forall d n i, fill16 d n i l <> NoFuel.
Proof. induction l as [|x l IH]; intros d n i; cbn [fill16]; [done|]. nfo; apply IH. Qed.
Lemma nf_fill48from256 l : forall d n i, fill48from256 d n i l <> NoFuel.
Proof. induction l as [|x l IH]; intros d n i; cbn [fill48from256]; [done|]. nfo; apply IH. Qed.
Hint Resolve nf_fill16 nf_fill48from256 : nfdb.
Lemma nfm_hloadN a : nfm (hloadN (V:=V) a).
Proof. intros h. unfold hloadN. by destruct (h_nodes h !! a). Qed.
Lemma nfm_hloadL a : nfm (hloadL (V:=V) a).
Proof. intros h. unfold hloadL. by destruct (h_leaves h !! a). Qed.
Lemma nfm_hstoreN a n : nfm (hstoreN (V:=V) a n). Proof. done. Qed.
Lemma nfm_hstoreL a n : nfm (hstoreL (V:=V) a n). Proof. done. Qed.
Lemma nfm_hallocN n : nfm (hallocN (V:=V) n). Proof. done. Qed.
Lemma nfm_hallocL n : nfm (hallocL (V:=V) n). Proof. done. Qed.
Lemma nfm_hmakeChan : nfm (hmakeChan (V:=V)). Proof. done. Qed.
Hint Resolve nfm_hloadN nfm_hloadL nfm_hstoreN nfm_hstoreL nfm_hallocN nfm_hallocL nfm_hmakeChan : nfdb.
Lemma nfm_getMutateChN a : nfm (getMutateChN (V:=V) a).
Proof. unfold getMutateChN. nfs. Qed.
Lemma nfm_getMutateChL a : nfm (getMutateChL (V:=V) a).
Proof. unfold getMutateChL. nfs. Qed.
Hint Resolve nfm_getMutateChN nfm_getMutateChL : nfdb.
Lemma nfm_setMutateChN a c : nfm (setMutateChN (V:=V) a c).
Proof. unfold setMutateChN. nfs. Qed.
Lemma nfm_setMutateChL a c : nfm (setMutateChL (V:=V) a c).
Proof. unfold setMutateChL. nfs. Qed.
Hint Resolve nfm_setMutateChN nfm_setMutateChL : nfdb.
Lemma nfm_cloneN a b : nfm (cloneN (V:=V) a b).
Proof. unfold cloneN. nfs. Qed.
Lemma nfm_cloneL a b : nfm (cloneL (V:=V) a b).
Proof. unfold cloneL. nfs. Qed.
Hint Resolve nfm_cloneN nfm_cloneL : nfdb.
Lemma nfm_trackN a : nfm (trackN (V:=V) a).
Proof. unfold trackN, addTracked. nfs. Qed.
Lemma nfm_trackL a : nfm (trackL (V:=V) a).
Proof. unfold trackL, addTracked. nfs. Qed.
Hint Resolve nfm_trackN nfm_trackL : nfdb.
Lemma nfm_trackAllN l : nfm (trackAllN (V:=V) l).
Proof. induction l; cbn [trackAllN]; nfs. Qed.
Lemma nfm_writeNode a b : nfm (writeNode (V:=V) a b).
Proof. unfold writeNode, trackOptL, nextId. nfs. Qed.
Lemma nfm_writeLeaf a b : nfm (writeLeaf (V:=V) a b).
Proof. unfold writeLeaf, trackOptL, nextId. nfs. Qed.
Hint Resolve nfm_trackAllN nfm_writeNode nfm_writeLeaf : nfdb.
Lemma nfm_allocNode k : nfm (allocNode (V:=V) k).
Proof. unfold allocNode, nextId. nfs. Qed.
Hint Resolve nfm_allocNode : nfdb.
Lemma nfm_removeChild a c : nfm (removeChild (V:=V) a c).
Proof.
  unfold removeChild, removeChild4, removeChild16, removeChild48, removeChild256, moveLeaf, setNodeLeaf. nfs.
Qed.
Hint Resolve nfm_removeChild : nfdb.
Lemma nfm_recursiveDelete key : forall f node depth, length key - depth < f -> nfm (recursiveDelete (V:=V) f node key depth).
Proof.
  induction f as [|f IH]; intros node depth Hf; [lia|]. cbn [recursiveDelete]. destruct node as [node|]; [|nfs]. unfold setNodeLeaf, setChild.
  apply nfm_bind; [nfs|]. intros n. apply nfm_bind; [nfs|]. intros _. destruct (_ && _); [nfs|]. apply nfm_bind; [nfs|]. intros [hit|]; [nfs|].
  apply nfm_bind; [nfs|]. intros [|]; [nfs|]. unfold byteAt. destruct (key !! _) as [c|] eqn:Ec; [|by intros s]. apply lookup_lt_Some in Ec. apply nfm_bind; [nfs|]. intros c'.
  apply nfm_bind; [nfs|]. intros [[child|] idx]; [|nfs]. apply nfm_bind; [apply IH; lia|]. intros [[nc val] mu]. nfs.
Qed.
Lemma nfm_txnDelete k : nfm (txnDelete (V:=V) k).
Proof.
  unfold txnDelete. apply nfm_bind; [nfs|]. intros t. apply nfm_bind; [apply nfm_recursiveDelete; unfold delete_fuel; lia|]. intros [[nr l] b]. unfold installEmptyRoot. nfs.
Qed.
End Fuel.
