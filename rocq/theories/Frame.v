(** Reads depend only on the cells they can reach.

    D is a set of cells closed under all pointers, on which the memories h and h' agree; h' may have further
    cells.  Then every read that starts in D gives the same result in h' as in h.  The fuel of a walk grows with
    the memory, so the statement is: same result, unless the walk in h has run out of fuel. *)
From Verif Require Export Own IterOps Spec SpecDfs.
From stdpp Require Import list.
Local Open Scope nat_scope.

Section Frame.
Context {V : Type} `{GoZero V}.

Section Two.
Variables (D : addr -> Prop) (h h' : heap V).
Definition oD (o : option addr) : Prop := match o with Some x => D x | None => True end.
Definition inn (n : inode) : Prop := Forall oD (n_children n) /\ oD (n_leaf n).
Record agrees : Prop := mk_ag {
  ag_next : h_next h <= h_next h';
  ag_nd : forall x, D x -> h_nodes h' !! x = h_nodes h !! x;
  ag_lv : forall x, D x -> h_leaves h' !! x = h_leaves h !! x;
  ag_cl : forall x n, D x -> h_nodes h !! x = Some n -> inn n }.
Hypothesis A : agrees.

(** the second outcome equals the first, unless that is NoFuel; and results satisfy P *)
Definition le {X} (P : X -> Prop) (o o' : outcome X) : Prop :=
  o = NoFuel \/ (o' = o /\ match o with Ok a => P a | _ => True end).
Lemma le_mono {X} (P Q : X -> Prop) o o' : le P o o' -> (forall a, P a -> Q a) -> le Q o o'.
Proof. intros [?|[-> E]] HPQ; [by left|right]. split; [done|]. destruct o; auto. Qed.
Lemma le_bind {X Y} (P : X -> Prop) (Q : Y -> Prop) o o' k k' : le P o o' -> (forall a, P a -> le Q (k a) (k' a)) -> le Q (obind o k) (obind o' k').
Proof. intros [->|[-> E]] Hk; [by left|]. destruct o; cbn; [by apply Hk|right; done|by left]. Qed.
Lemma le_bindp {X Y} (P : X -> Prop) (Q : Y -> Prop) o k k' : (forall a, o = Ok a -> P a) -> (forall a, P a -> le Q (k a) (k' a)) -> le Q (obind o k) (obind o k').
Proof. intros Ho Hk. destruct o; cbn; [apply Hk; by apply Ho|right; done|by left]. Qed.
Lemma le_ok {X} (P : X -> Prop) a : P a -> le P (Ok a) (Ok a).
Proof. by right. Qed.
Lemma le_panic {X} (P : X -> Prop) : le P Panic Panic.
Proof. by right. Qed.
Lemma le_nofuel {X} (P : X -> Prop) o : le P NoFuel o.
Proof. by left. Qed.
Lemma le_refl {X} (P : X -> Prop) o : (forall a, o = Ok a -> P a) -> le P o o.
Proof. intros HP. right. split; [done|]. destruct o; auto. Qed.

Definition eD (e : option ref) : Prop := match e with Some (RN a) => D a | Some (RL a) => D a | None => True end.
Lemma eD_RNo o : oD o -> eD (RNo o).
Proof. by destruct o. Qed.
Lemma inn_iter n : inn n -> Forall oD (iterChildren n).
Proof.
  intros [HF _]. unfold iterChildren. destruct (n_kind n).
  1,2: by apply Forall_take.
  - apply Forall_fmap, Forall_forall. intros x Hx. apply elem_of_list_omap in Hx as (k & _ & Hk). destruct (Nat.eqb k 0); [done|].
    destruct (n_children n !! (k - 1)) as [[y|]|] eqn:E; cbn in Hk; try done. injection Hk as ->. by apply (Forall_lookup_1 _ _ _ _ HF E).
  - apply Forall_fmap, Forall_forall. intros x Hx. apply elem_of_list_omap in Hx as (k & Hk & E). cbn in E. subst k. rewrite Forall_forall in HF. by apply (HF (Some x)).
Qed.
Lemma inn_stack n : inn n -> Forall eD (RNo <$> iterChildren n).
Proof. intros Hn. apply Forall_fmap. eapply Forall_impl; [by apply inn_iter|]. apply eD_RNo. Qed.
Lemma inn_kids n : inn n -> Forall eD ((fun c => Some (RN c)) <$> omap id (iterChildren n)).
Proof.
  intros Hn. apply Forall_fmap, Forall_forall. intros x Hx. apply elem_of_list_omap in Hx as (k & Hk & E). cbn in E. subst k.
  pose proof (inn_iter n Hn) as HF. rewrite Forall_forall in HF. by apply (HF (Some x)).
Qed.
Lemma inn_get n i c : inn n -> getChild n i = Ok c -> oD c.
Proof. intros [HF _] E. by eapply (P_getChild oD). Qed.
Lemma inn_find n b p : inn n -> findChild n b = Ok p -> oD p.1.
Proof. destruct p as [c i]. intros [HF _] E. by eapply (P_findChild oD). Qed.
Lemma first256 cs : Forall oD cs -> oD (first_child256 cs).
Proof. induction 1 as [|[x|] cs Hx HF IH]; done. Qed.
Lemma inn_min n c : inn n -> minChild n = Ok c -> oD c.
Proof.
  intros Hn E. unfold minChild in E. destruct (n_kind n); [by eapply inn_get..| |].
  - destruct (getKeyAtIdx _ _) as [k| |]; try discriminate. cbn in E. destruct (Nat.ltb _ _); [by eapply inn_get|]. by injection E as <-.
  - injection E as <-. apply first256. apply Hn.
Qed.
Lemma inn_max n c : inn n -> maxChild n = Ok c -> oD c.
Proof.
  intros Hn E. unfold maxChild in E. destruct (n_kind n); [by eapply inn_get..| |].
  - destruct (Nat.ltb _ _); [|done]. destruct (getKeyAtIdx _ _) as [k| |]; try discriminate. cbn in E. destruct (Nat.ltb _ _); [by eapply inn_get|]. by injection E as <-.
  - injection E as <-. apply first256. apply Forall_reverse, Hn.
Qed.
Lemma walk_le : exists d, walk_fuel h' = walk_fuel h + d.
Proof. pose proof (ag_next A). exists (h_next h' - h_next h). unfold walk_fuel. lia. Qed.

(** A case split on a cell of D. *)
Lemma node_cases {X} (P : X -> Prop) x k k' p p' : D x -> le P p p' -> (forall n, h_nodes h !! x = Some n -> inn n -> le P (k n) (k' n)) ->
  le P (match h_nodes h !! x with Some n => k n | None => p end) (match h_nodes h' !! x with Some n => k' n | None => p' end).
Proof. intros Hx Hp Hk. rewrite (ag_nd A x Hx). destruct (h_nodes h !! x) as [n|] eqn:E; [|done]. apply Hk; [done|]. by eapply ag_cl. Qed.
Lemma leaf_cases {X} (P : X -> Prop) x (k k' : lnode V -> outcome X) p p' : D x -> le P p p' -> (forall l, le P (k l) (k' l)) ->
  le P (match h_leaves h !! x with Some l => k l | None => p end) (match h_leaves h' !! x with Some l => k' l | None => p' end).
Proof. intros Hx Hp Hk. rewrite (ag_lv A x Hx). destruct (h_leaves h !! x) as [n|] eqn:E; [|done]. apply Hk. Qed.

Ltac fside := first [assumption | exact Logic.I
  | match goal with E : n_leaf ?n = Some ?x, Hn : inn ?n |- D ?x => let K := fresh in pose proof (proj2 Hn) as K; rewrite E in K; exact K end
  | match goal with Hn : inn ?n |- oD (n_leaf ?n) => exact (proj2 Hn) end ].

Lemma fr_minimum f d o : oD o -> le oD (minimum f h o) (minimum (f + d) h' o).
Proof.
  revert o. induction f as [|f IH]; intros o Ho; [by left|]. cbn [minimum Nat.add]. destruct o as [a|]; [|by apply le_ok].
  apply node_cases; [done|apply le_panic|]. intros n _ Hn. destruct (isLeafN n); [apply le_ok; fside|].
  destruct (n_leaf n) as [l|] eqn:El; [apply le_ok; cbn; fside|]. apply (le_bindp oD).
  - intros c. by apply inn_min.
  - intros [c|] Hc; [by apply IH|by apply le_ok].
Qed.
Lemma fr_maximum f d o : oD o -> le oD (maximum f h o) (maximum (f + d) h' o).
Proof.
  revert o. induction f as [|f IH]; intros o Ho; [by left|]. cbn [maximum Nat.add]. destruct o as [a|]; [|by apply le_ok].
  apply node_cases; [done|apply le_panic|]. intros n _ Hn. destruct (isLeafN n); [apply le_ok; fside|]. apply (le_bindp oD).
  - intros c. by apply inn_max.
  - intros [c|] Hc; [by apply IH|by apply le_ok].
Qed.
Lemma fr_min_walk o : oD o -> le oD (minimum (walk_fuel h) h o) (minimum (walk_fuel h') h' o).
Proof. intros Ho. destruct walk_le as [d ->]. by apply fr_minimum. Qed.
Lemma fr_max_walk o : oD o -> le oD (maximum (walk_fuel h) h o) (maximum (walk_fuel h') h' o).
Proof. intros Ho. destruct walk_le as [d ->]. by apply fr_maximum. Qed.
Lemma le_same {X} (o : outcome X) : le (fun _ => True) o o.
Proof. apply le_refl. done. Qed.
Lemma le_eq {X Y} (Q : Y -> Prop) (o : outcome X) k k' : (forall a, o = Ok a -> le Q (k a) (k' a)) -> le Q (obind o k) (obind o k').
Proof. intros Hk. destruct o; cbn; [by apply Hk|right; done|by left]. Qed.
Lemma fr_prefixMismatch a n key depth : D a -> le (fun _ => True) (prefixMismatch h a n key depth) (prefixMismatch h' a n key depth).
Proof.
  intros Ha. unfold prefixMismatch. apply le_eq. intros idx _. destruct (Nat.ltb idx _); [by apply le_ok|]. destruct (Nat.ltb _ _); [|apply le_same].
  eapply le_bind; [by apply fr_min_walk|]. intros [la|] Hl; [|apply le_same]. apply leaf_cases; [done|apply le_panic|]. intros l. apply le_same.
Qed.

Lemma fr_scanChildren key cs : Forall oD cs -> le oD (scanChildren h key cs) (scanChildren h' key cs).
Proof.
  induction 1 as [|[x|] cs Hx HF IH]; cbn [scanChildren]; [by apply le_ok| |done].
  apply node_cases; [done|apply le_panic|]. intros n _ Hn. destruct (n_leaf n) as [la|] eqn:El; [|done].
  assert (D la) by fside. apply leaf_cases; [done|apply le_panic|]. intros l. destruct (leafMatches _ _); [by apply le_ok|done].
Qed.
Lemma fr_ownLeaf key n : inn n -> le oD (ownLeaf h key n) (ownLeaf h' key n).
Proof.
  intros Hn. unfold ownLeaf. destruct (n_leaf n) as [la|] eqn:El; [|by apply le_ok]. assert (D la) by fside.
  apply leaf_cases; [done|apply le_panic|]. intros l. apply le_ok. by destruct (leafMatches _ _).
Qed.
Definition sD (r : sres) : Prop := match r with Found l => D l | Missing a => D a end.
Lemma fr_searchExit key a n : D a -> inn n -> le sD (searchExit h key a n) (searchExit h' key a n).
Proof.
  intros Ha Hn. unfold searchExit. eapply le_bind; [by apply fr_ownLeaf|]. intros [la|] Hla; [by apply le_ok|].
  eapply le_bind; [apply fr_scanChildren, Hn|]. intros [la|] Hla'; by apply le_ok.
Qed.
Lemma fr_search f a key depth : D a -> le sD (search f h a key depth) (search f h' a key depth).
Proof.
  revert a depth. induction f as [|f IH]; intros a depth Ha; [by left|]. cbn [search]. apply node_cases; [done|apply le_panic|]. intros n _ Hn.
  eapply (le_bind oD). { destruct (isLeafN n); [by apply fr_ownLeaf|by apply le_ok]. }
  intros [la|] Hla; [by apply le_ok|]. apply le_eq. intros pl _. destruct (_ && _); [by apply fr_searchExit|].
  destruct (key !! _) as [c|]; [|by apply fr_searchExit]. apply le_eq. intros [ch i] E. apply (inn_find _ _ _ Hn) in E. destruct ch as [ca|]; [by apply IH|by apply fr_searchExit].
Qed.
Lemma fr_getFrom a key : D a -> le (fun _ => True) (getFrom h a key) (getFrom h' a key).
Proof.
  intros Ha. unfold getFrom. eapply le_bind; [by apply fr_search|]. intros [la|b] Hs; [|apply le_same]. apply leaf_cases; [done|apply le_panic|]. intros l. apply le_same.
Qed.

Lemma fr_lpScan key last cs : Forall oD cs -> oD last -> le oD (lpScan h key last cs) (lpScan h' key last cs).
Proof.
  intros HF. revert last. induction HF as [|[x|] cs Hx HF IH]; intros last Hl; cbn [lpScan]; [by apply le_ok| |by apply IH].
  apply node_cases; [done|apply le_panic|]. intros n _ Hn. destruct (n_leaf n) as [la|] eqn:El; [|by apply IH].
  assert (D la) by fside. apply leaf_cases; [done|apply le_panic|]. intros l. apply IH. by destruct (has_prefix _ _).
Qed.
Lemma fr_lpLoop f a key depth last : D a -> oD last -> le oD (lpLoop f h a key depth last) (lpLoop f h' a key depth last).
Proof.
  revert a depth last. induction f as [|f IH]; intros a depth last Ha Hl; [by left|]. cbn [lpLoop]. apply node_cases; [done|apply le_panic|]. intros n _ Hn.
  apply le_eq. intros pl _. destruct (_ && _); [by apply le_ok|]. destruct (key !! _) as [c|]; [|by apply le_ok].
  eapply (le_bind oD).
  { destruct (n_leaf n) as [la|] eqn:El; [|by apply le_ok]. assert (D la) by fside. apply leaf_cases; [done|apply le_panic|]. intros l. apply le_ok. by destruct (has_prefix _ _). }
  intros last1 Hl1. eapply le_bind; [by apply fr_lpScan; [apply Hn|]|]. intros last2 Hl2. apply le_eq. intros [ch i] E. apply (inn_find _ _ _ Hn) in E.
  destruct ch as [ca|]; [by apply IH|by apply le_ok].
Qed.
Lemma fr_longestPrefix a k : D a -> le (fun _ => True) (longestPrefixFrom h a k) (longestPrefixFrom h' a k).
Proof.
  intros Ha. unfold longestPrefixFrom. apply node_cases; [done|apply le_panic|]. intros n _ Hn. eapply le_bind; [apply fr_lpLoop; [done|apply Hn]|].
  intros [la|] Hl; [|apply le_same]. apply leaf_cases; [done|apply le_panic|]. intros l. apply le_same.
Qed.
Lemma fr_leafKV o : oD o -> le (fun _ => True) (leafKV h o) (leafKV h' o).
Proof. intros Ho. destruct o as [la|]; cbn [leafKV]; [|apply le_same]. apply leaf_cases; [done|apply le_panic|]. intros l. apply le_same. Qed.
Lemma fr_treeMinimum t : D (r_root t) -> le (fun _ => True) (treeMinimum h t) (treeMinimum h' t).
Proof. intros Ht. unfold treeMinimum. eapply le_bind; [by apply fr_min_walk|]. apply fr_leafKV. Qed.
Lemma fr_treeMaximum t : D (r_root t) -> le (fun _ => True) (treeMaximum h t) (treeMaximum h' t).
Proof. intros Ht. unfold treeMaximum. eapply le_bind; [by apply fr_max_walk|]. apply fr_leafKV. Qed.

Lemma fr_recursiveWalk {B} (fn : bytes -> V -> B -> B * bool) f d a acc : D a ->
  le (fun _ => True) (recursiveWalk fn f h a acc) (recursiveWalk fn (f + d) h' a acc).
Proof.
  revert a acc. induction f as [|f IH]; intros a acc Ha; [by left|]. cbn [recursiveWalk Nat.add]. apply node_cases; [done|apply le_panic|]. intros n _ Hn.
  eapply (le_bind (fun _ => True)).
  { destruct (isLeafN n); [|apply le_same]. destruct (n_leaf n) as [la|] eqn:El; [|apply le_same]. assert (D la) by fside. apply leaf_cases; [done|apply le_panic|]. intros l. apply le_same. }
  intros [acc1 stop] _. destruct stop; [apply le_same|]. destruct Hn as [HF _]. revert acc1.
  induction HF as [|[x|] cs Hx HF IHc]; intros acc1; [apply le_same| |apply IHc].
  eapply le_bind; [by apply IH|]. intros [acc2 stop] _. destruct stop; [apply le_same|apply IHc].
Qed.
Lemma fr_treeWalk {B} (fn : bytes -> V -> B -> B * bool) t acc : D (r_root t) -> le (fun _ => True) (treeWalk fn h t acc) (treeWalk fn h' t acc).
Proof.
  intros Ht. unfold treeWalk. destruct walk_le as [d ->]. eapply le_bind; [by apply fr_recursiveWalk|]. intros [? ?] _. apply le_same.
Qed.
Lemma fr_dfsNode f d a : D a -> le (Forall D) (dfsNode f h a) (dfsNode (f + d) h' a).
Proof.
  revert a. induction f as [|f IH]; intros a Ha; [by left|]. cbn [dfsNode Nat.add]. apply node_cases; [done|apply le_panic|]. intros n _ Hn.
  eapply (le_bind (Forall D)); [|intros rest Hr; apply le_ok; by constructor]. generalize (seq 0 (n_nch n)) as is_.
  induction is_ as [|i is_ IHi]; [by apply le_ok|]. apply (le_bindp oD); [intros c; by apply inn_get|]. intros [c|] Hc; [|exact IHi].
  eapply le_bind; [by apply IH|]. intros l1 Hl1. eapply le_bind; [exact IHi|]. intros l2 Hl2. apply le_ok. by apply Forall_app.
Qed.
Lemma fr_shown_by a : D a -> shown_by h' a = shown_by h a.
Proof.
  intros Ha. unfold shown_by. rewrite (ag_nd A a Ha). destruct (h_nodes h !! a) as [n|] eqn:En; [|done]. cbn.
  pose proof (proj2 (ag_cl A a n Ha En)) as Hl. destruct (n_leaf n) as [la|]; [|done]. cbn. by rewrite (ag_lv A la Hl).
Qed.
Lemma fr_treeDfs t : D (r_root t) -> le (fun _ => True) (treeDfs h t) (treeDfs h' t).
Proof.
  intros Ht. unfold treeDfs. destruct walk_le as [d ->]. eapply le_bind; [by apply fr_dfsNode|]. intros ns Hns.
  replace (shown_by h' <$> ns) with (shown_by h <$> ns); [apply le_same|]. induction Hns as [|a ns Ha _ IH]; [done|]. rewrite !fmap_cons, IH. by rewrite fr_shown_by.
Qed.

(** ** Iterators: the stack stays in D *)
Definition stD (r : option (bytes * V) * list (option ref)) : Prop := Forall eD r.2.
Lemma fr_nextLoop f d path st : Forall eD st -> le stD (nextLoop f h path st) (nextLoop (f + d) h' path st).
Proof.
  revert st. induction f as [|f IH]; intros st Hst; [by left|]. cbn [nextLoop Nat.add]. destruct Hst as [|[[a|la]|] st Ha Hst]; [apply le_ok; constructor| | |apply le_ok; exact Hst].
  - apply node_cases; [done|apply le_panic|]. intros n _ Hn. pose proof (inn_stack n Hn). assert (Forall eD ((RNo <$> iterChildren n) ++ st)) by by apply Forall_app.
    destruct (n_leaf n) as [la|] eqn:El; [|by apply IH]. assert (D la) by fside. apply leaf_cases; [done|apply le_panic|]. intros l.
    destruct (hasPrefix _ _); [by apply le_ok|by apply IH].
  - apply leaf_cases; [done|apply le_panic|]. intros l. destruct (_ && _); [by apply le_ok|by apply IH].
Qed.
Definition itD (it : IterOps.iter) : Prop := eD (it_node it) /\ Forall eD (stackOf (it_stack it)).
Lemma fr_iterNext it : itD it -> le (fun r => itD r.2) (iterNext h it) (iterNext h' it).
Proof.
  intros [Hn Hs]. unfold iterNext. destruct walk_le as [d ->]. eapply le_bind; [by apply fr_nextLoop|]. intros [r st] Hr. by apply le_ok.
Qed.
Lemma itD_new a : D a -> itD (newIter a).
Proof. intros Ha. split; [done|constructor]. Qed.
Lemma fr_seekLoop f a prefix depth : D a -> le D (seekLoop f h a prefix depth) (seekLoop f h' a prefix depth).
Proof.
  revert a depth. induction f as [|f IH]; intros a depth Ha; [by left|]. cbn [seekLoop]. apply node_cases; [done|apply le_panic|]. intros n _ Hn.
  eapply (le_bind (fun _ => True)).
  { destruct (_ && _); [|apply le_same]. eapply le_bind; [by apply fr_prefixMismatch|]. intros m _. apply le_same. }
  intros [stop dp] _. destruct stop; [by apply le_ok|]. destruct (prefix !! dp) as [c|]; [|by apply le_ok].
  apply le_eq. intros [ch i] E. apply (inn_find _ _ _ Hn) in E. destruct ch as [ca|]; [by apply IH|by apply le_ok].
Qed.
Lemma fr_seekPrefix it p : itD it -> le itD (seekPrefix h it p) (seekPrefix h' it p).
Proof.
  intros [Hn Hs]. unfold seekPrefix. destruct (it_node it) as [[a|]|]; [|apply le_panic..]. eapply le_bind; [by apply fr_seekLoop|].
  intros b Hb. apply le_ok. split; [done|]. by repeat constructor.
Qed.
Lemma fr_pathNextLoop f d path st : Forall eD st -> le stD (pathNextLoop f h path st) (pathNextLoop (f + d) h' path st).
Proof.
  revert st. induction f as [|f IH]; intros st Hst; [by left|]. cbn [pathNextLoop Nat.add]. destruct Hst as [|[[a|la]|] st Ha Hst]; [apply le_ok; constructor| | |apply le_panic].
  - apply node_cases; [done|apply le_panic|]. intros n _ Hn. pose proof (inn_kids n Hn). apply IH. apply Forall_app. split; [|by apply Forall_app].
    destruct (n_leaf n) as [la|] eqn:El; [|done]. repeat constructor. cbn. fside.
  - apply leaf_cases; [done|apply le_panic|]. intros l. destruct (prefixContainsMatch _ _); [by apply le_ok|by apply IH].
Qed.
Lemma fr_pathNext it : Forall eD (pi_stack it) -> le (fun r => Forall eD (pi_stack r.2)) (pathNext h it) (pathNext h' it).
Proof.
  intros Hs. unfold pathNext. destruct walk_le as [d ->]. eapply le_bind; [by apply fr_pathNextLoop|]. intros [r st] Hr. by apply le_ok.
Qed.
Lemma fr_lowerNextLoop f d st : Forall eD st -> le stD (lowerNextLoop f h st) (lowerNextLoop (f + d) h' st).
Proof.
  revert st. induction f as [|f IH]; intros st Hst; [by left|]. cbn [lowerNextLoop Nat.add]. destruct Hst as [|[[a|la]|] st Ha Hst]; [apply le_ok; constructor| | |apply le_ok; exact Hst].
  - apply node_cases; [done|apply le_panic|]. intros n _ Hn. pose proof (inn_stack n Hn). assert (Forall eD ((RNo <$> iterChildren n) ++ st)) by by apply Forall_app.
    destruct (n_leaf n) as [la|] eqn:El; [|by apply IH]. assert (D la) by fside. apply leaf_cases; [done|apply le_panic|]. intros l. by apply le_ok.
  - apply leaf_cases; [done|apply le_panic|]. intros l. by apply le_ok.
Qed.
Definition liD (it : liter) : Prop := oD (li_node it) /\ Forall eD (li_stack it).
Lemma fr_lowerNext it : liD it -> le (fun r => liD r.2) (lowerNext h it) (lowerNext h' it).
Proof.
  intros [Hn Hs]. unfold lowerNext. destruct walk_le as [d ->]. eapply le_bind; [by apply fr_lowerNextLoop|]. intros [r st] Hr. by apply le_ok.
Qed.
Definition lfD (o : option (addr * bytes)) : Prop := match o with Some (a, _) => D a | None => True end.
Lemma fr_leafOf n : inn n -> le lfD (leafOf h n) (leafOf h' n).
Proof.
  intros Hn. unfold leafOf. destruct (n_leaf n) as [la|] eqn:El; [|by apply le_ok]. assert (D la) by fside. apply leaf_cases; [done|apply le_panic|]. intros l. by apply le_ok.
Qed.
Lemma fr_nodeOf a : D a -> le inn (nodeOf h a) (nodeOf h' a).
Proof. intros Ha. unfold nodeOf. apply node_cases; [done|apply le_panic|]. intros n _ Hn. by apply le_ok. Qed.
Lemma fr_pushParent path np p st : oD p -> Forall eD st -> le (Forall eD) (pushParent h path np p st) (pushParent h' path np p st).
Proof.
  intros Hp Hst. unfold pushParent. destruct p as [p|]; [|destruct np; [apply le_panic|by apply le_ok]].
  eapply le_bind; [by apply fr_nodeOf|]. intros pn Hpn. eapply le_bind; [by apply fr_leafOf|]. intros [[la k]|] Hl; apply le_ok; [|done]. destruct (bytes_geb _ _); [by constructor|done].
Qed.
Lemma fr_pushKids path np n is_ st : inn n -> Forall eD st -> le (Forall eD) (pushKids h path np n is_ st) (pushKids h' path np n is_ st).
Proof.
  intros Hn. revert st. induction is_ as [|i is_ IH]; intros st Hst; cbn [pushKids]; [by apply le_ok|]. apply le_eq. intros [c|] E; [|destruct np; [apply le_panic|by apply IH]].
  apply (inn_get _ _ _ Hn) in E. eapply le_bind; [by apply fr_nodeOf|]. intros cn Hcn. eapply le_bind; [by apply fr_leafOf|]. intros cl _. apply IH.
  destruct (match cl with None => _ | Some _ => _ end); [by constructor|done].
Qed.
Lemma F_pushFound path a lf st : D a -> Forall eD st -> Forall eD (pushFound path a lf st).
Proof. intros Ha Hst. unfold pushFound. destruct lf as [[? ?]|]; [destruct (bytes_geb _ _)|]; try done; by constructor. Qed.
Lemma le_keepNode o o' : le (Forall eD) o o' -> le (fun r => Forall eD r.1) (keepNode o) (keepNode o').
Proof. intros Ho. unfold keepNode. eapply le_bind; [exact Ho|]. intros a Ha. by apply le_ok. Qed.
Lemma fr_lowerLoop f path node parent depth seen st : oD node -> oD parent -> Forall eD st ->
  le (fun r => Forall eD r.1) (lowerLoop f h path node parent depth seen st) (lowerLoop f h' path node parent depth seen st).
Proof.
  revert node parent depth seen st. induction f as [|f IH]; intros node parent depth seen st Hnode Hpar Hst; [by left|]. cbn [lowerLoop].
  destruct node as [a|].
  2:{ destruct parent as [p|]; [|by apply le_ok]. eapply le_bind; [by apply fr_nodeOf|]. intros pn Hpn. eapply le_bind; [by apply fr_leafOf|].
      intros [[la k]|] Hl; apply le_ok; [by constructor|done]. }
  eapply le_bind; [by apply fr_nodeOf|]. intros n Hn. eapply le_bind; [by apply fr_leafOf|]. intros lf Hlf. apply le_eq. intros cmp _.
  assert (K1 : le (fun r => Forall eD r.1) (keepNode (pushParent h path false parent (pushFound path a lf st))) (keepNode (pushParent h' path false parent (pushFound path a lf st)))).
  { apply le_keepNode, fr_pushParent; [done|]. by apply F_pushFound. }
  assert (K2 : le (fun r => Forall eD r.1) (let? s := pushParent h path false parent st in Ok (s, true)) (let? s := pushParent h' path false parent st in Ok (s, true))).
  { eapply le_bind; [by apply fr_pushParent|]. intros s Hs. by apply le_ok. }
  match goal with |- le _ (match cmp with Eq => ?m | Lt => _ | Gt => _ end) (match cmp with Eq => ?m' | Lt => _ | Gt => _ end) => cut (le (fun r => Forall eD r.1) m m') end.
  { intros K3. destruct cmp; [exact K3| |]; destruct seen; try exact K3; done. }
  destruct (_ && _); [exact K1|]. eapply le_bind; [by apply fr_prefixMismatch|]. intros m _. destruct (_ && negb seen); [by apply le_ok|].
  destruct (path !! _) as [c|]; [|exact K1]. apply le_eq. intros idx _. destruct idx as [idx|].
  - eapply (le_bind lfD).
    { destruct parent as [p|]; [|by apply le_ok]. eapply le_bind; [by apply fr_nodeOf|]. intros pn Hpn. by apply fr_leafOf. }
    intros pl Hpl.
    assert (K4 : forall b, le (fun r => Forall eD r.1)
      (let? stack := pushKids h path false n (reverse (seq (b + 1) (n_nch n - (b + 1)))) st in
       let? k := getKeyAtIdx n b in let? ch := getChild n b in
       lowerLoop f h path ch (Some a) (depth + n_plen n + 1) ((seen || Nat.ltb 0 m) || negb (Nat.eqb k c)) stack)
      (let? stack := pushKids h' path false n (reverse (seq (b + 1) (n_nch n - (b + 1)))) st in
       let? k := getKeyAtIdx n b in let? ch := getChild n b in
       lowerLoop f h' path ch (Some a) (depth + n_plen n + 1) ((seen || Nat.ltb 0 m) || negb (Nat.eqb k c)) stack)).
    { intros b. eapply le_bind; [by apply fr_pushKids|]. intros st1 Hst1. apply le_eq. intros k _. apply le_eq. intros ch Hch. apply (inn_get _ _ _ Hn) in Hch. by apply IH. }
    destruct (seen || Nat.ltb 0 m); [|apply K4]. destruct pl as [[pla pk]|]; [|apply K4].
    eapply (le_bind (Forall eD)). { destruct (match lf with Some (_, k) => _ | None => false end); [apply le_ok; by constructor|by apply fr_pushKids]. }
    intros st1 Hst1. apply le_ok. cbn. destruct (bytes_geb _ _); [by constructor|done].
  - destruct (negb _); [by apply le_ok|]. eapply (le_bind (Forall eD)).
    { destruct lf as [[la k]|]; [|by apply fr_pushKids]. apply le_ok. destruct (bytes_geb _ _); [by constructor|done]. }
    intros st1 Hst1. apply le_keepNode. by apply fr_pushParent.
Qed.
Lemma fr_seekLowerBound it key : liD it -> le liD (seekLowerBound h it key) (seekLowerBound h' it key).
Proof.
  intros [Hn Hs]. unfold seekLowerBound. destruct key as [|b key]; [apply le_ok; split; [done|]; repeat constructor; by apply eD_RNo|].
  eapply le_bind; [by apply fr_lowerLoop|]. intros [st cl] Hst. apply le_ok. split; [by destruct cl|done].
Qed.
Lemma fr_prevLoop f d path exp st : Forall eD st -> le stD (prevLoop f h path exp st) (prevLoop (f + d) h' path exp st).
Proof.
  revert st. induction f as [|f IH]; intros st Hst; [by left|]. cbn [prevLoop Nat.add]. destruct Hst as [|[[a|la]|] st Ha Hst]; [apply le_ok; constructor| | |apply le_ok; exact Hst].
  - apply node_cases; [done|apply le_panic|]. intros n _ Hn. pose proof (inn_stack n Hn) as Hk.
    eapply (le_bind (fun lf : option (addr * lnode V) => match lf with Some (la, _) => D la | None => True end)).
    { destruct (n_leaf n) as [la|] eqn:El; [|by apply le_ok]. assert (D la) by fside. apply leaf_cases; [done|apply le_panic|]. intros l. by apply le_ok. }
    intros lf Hlf. set (st1 := match lf with Some (la, l) => _ | None => st end).
    assert (Hst1 : Forall eD st1). { subst st1. destruct lf as [[la l]|]; [|done]. destruct (_ || _); [by constructor|done]. }
    destruct (bool_decide _); [by apply IH|].
    assert (Hst2 : Forall eD (reverse (RNo <$> iterChildren n) ++ st1)). { apply Forall_app; split; [|done]. by apply Forall_reverse. }
    destruct lf as [[la l]|]; [|by apply IH]. destruct (hasPrefix _ _); [by apply le_ok|by apply IH].
  - apply leaf_cases; [done|apply le_panic|]. intros l. destruct (bytes_leb _ _); [by apply le_ok|by apply IH].
Qed.
Lemma fr_prev ri : itD (ri_it ri) -> le (fun r => itD (ri_it r.2)) (prev h ri) (prev h' ri).
Proof.
  intros [Hn Hs]. unfold prev. destruct walk_le as [d ->]. eapply le_bind.
  { apply fr_prevLoop. destruct (it_stack (ri_it ri)) as [st|]; [done|]. destruct (it_node (ri_it ri)); [by repeat constructor|constructor]. }
  intros [r st] Hr. apply le_ok. split; [done|]. cbn. destruct (it_stack (ri_it ri)) as [st0|]; [done|]. destruct (it_node (ri_it ri)); [done|constructor].
Qed.
Lemma fr_revSeekPrefix ri p : itD (ri_it ri) -> le (fun r => itD (ri_it r)) (revSeekPrefix h ri p) (revSeekPrefix h' ri p).
Proof. intros Hi. unfold revSeekPrefix. eapply le_bind; [by apply fr_seekPrefix|]. intros it Hit. by apply le_ok. Qed.
Lemma fr_revLoop f key prefix spare node depth seen exp st : oD node -> Forall eD st ->
  le (fun r => Forall eD r.1) (revLoop f h key prefix spare node depth seen exp st) (revLoop f h' key prefix spare node depth seen exp st).
Proof.
  revert node depth seen exp st. induction f as [|f IH]; intros node depth seen exp st Hnode Hst; [by left|]. cbn [revLoop].
  destruct node as [a|]; [|by apply le_ok]. eapply le_bind; [by apply fr_nodeOf|]. intros n Hn. eapply le_bind; [by apply fr_leafOf|]. intros lf Hlf.
  apply le_eq. intros part _. apply le_eq. intros cmp _.
  assert (Hcons : Forall eD (Some (RN a) :: st)) by by constructor.
  assert (Hlfs : Forall eD (match lf with Some (la, _) => Some (RL la) :: st | None => st end)). { destruct lf as [[? ?]|]; [by constructor|done]. }
  match goal with |- le _ (match cmp with Eq => ?m | Lt => _ | Gt => _ end) (match cmp with Eq => ?m' | Lt => _ | Gt => _ end) => cut (le (fun r => Forall eD r.1) m m') end.
  { intros K3. destruct cmp; [exact K3|by apply le_ok|]. destruct seen; [exact K3|by apply le_ok]. }
  destruct (isLeafN n && _); [by apply le_ok|]. eapply (le_bind (fun _ => True)).
  { destruct (Nat.ltb _ _); [|apply le_same]. eapply le_bind; [by apply fr_prefixMismatch|]. intros m _. apply le_same. }
  intros [m plen] _. destruct (_ && (_ && _)); [by apply le_ok|]. destruct (prefix !! _) as [c|]; [|by apply le_ok].
  apply le_eq. intros idx _. cbn zeta. apply le_eq. intros seen1 _.
  assert (Hst1 : Forall eD (match lf with Some _ => Some (RN a) :: st | None => st end)) by by destruct lf.
  destruct (if seen1 then _ else _) as [i|]; [|by apply le_ok].
  eapply (le_bind (Forall eD)).
  { apply le_refl. intros st2. revert Hst1. generalize (match lf with Some _ => Some (RN a) :: st | None => st end) as st1. generalize (seq 0 i) as l.
    induction l as [|j l IHl]; intros st1 Hst1 E; [by injection E as <-|]. destruct (getChild n j) as [ch| |] eqn:Ech; try discriminate. cbn [obind] in E.
    apply (inn_get _ _ _ Hn) in Ech. eapply IHl; [|exact E]. destruct ch; [by constructor|done]. }
  intros st2 Hst2. apply le_eq. intros ch Hch. apply (inn_get _ _ _ Hn) in Hch. by apply IH.
Qed.
Lemma fr_seekReverse ri key spare : itD (ri_it ri) -> le (fun r => itD (ri_it r)) (seekReverseLowerBound h ri key spare) (seekReverseLowerBound h' ri key spare).
Proof.
  intros [Hn Hs]. unfold seekReverseLowerBound. eapply le_bind.
  { apply fr_revLoop; [|constructor]. by destruct (it_node (ri_it ri)) as [[?|?]|]. }
  intros [st exp] Hst. by apply le_ok.
Qed.

Lemma fr_yields {I X} (P : I -> Prop) (nxt nxt' : I -> outcome (option X * I)) it l :
  (forall it, P it -> le (fun r => P r.2) (nxt it) (nxt' it)) -> P it -> yields nxt it l -> yields nxt' it l.
Proof.
  intros Hle HP Hy. revert HP. induction Hy as [it it' E|it x it' l E Hy IH]; intros HP; destruct (Hle it HP) as [K|[K1 K2]]; try congruence; rewrite E in K1, K2.
  - by eapply yields_nil.
  - eapply yields_cons; [done|]. by apply IH.
Qed.
End Two.
End Frame.
