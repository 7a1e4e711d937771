(** Readers give the same results in memories that correspond.

    The fuel of a walk depends on the size of the memory, so the statement is: the same, unless one of both runs out of fuel. *)
From Verif Require Export Serial SpecReads.
From stdpp Require Import list.
Local Open Scope nat_scope.

Section ReadRel.
Context {V : Type} `{GoZero V}.
Notation corr := (bool -> addr -> addr -> Prop).

(** P: the fuel may differ *)
Section Rl.
Variable P : Prop.
Inductive rl {A B} (R : A -> B -> Prop) : outcome A -> outcome B -> Prop :=
| rl_ok x y : R x y -> rl R (Ok x) (Ok y)
| rl_panic : rl R Panic Panic
| rl_nf : rl R NoFuel NoFuel
| rl_nl o : P -> rl R NoFuel o
| rl_nr o : P -> rl R o NoFuel.
Lemma rl_bind {A A' B B'} (R : A -> A' -> Prop) (S : B -> B' -> Prop) o o' f g : rl R o o' -> (forall x y, R x y -> rl S (f x) (g y)) -> rl S (obind o f) (obind o' g).
Proof. intros [x y E| | |o1 HP|o1 HP] Hf; cbn; [auto|by constructor..|]. destruct o1; by constructor. Qed.
Lemma rl_or {A B} (R : A -> B -> Prop) o o' : orel R o o' -> rl R o o'.
Proof. intros []; by constructor. Qed.
Lemma rl_bindo {A A' B B'} (R : A -> A' -> Prop) (S : B -> B' -> Prop) o o' f g : orel R o o' -> (forall x y, R x y -> rl S (f x) (g y)) -> rl S (obind o f) (obind o' g).
Proof. intros Ho. eapply rl_bind. by apply rl_or. Qed.
Lemma rl_eq {A B B'} (S : B -> B' -> Prop) (o : outcome A) f g : (forall x, rl S (f x) (g x)) -> rl S (obind o f) (obind o g).
Proof. intros Hf. destruct o; cbn; [auto|constructor..]. Qed.
Lemma rl_same {A} (o : outcome A) : rl eq o o.
Proof. destruct o; by constructor. Qed.
Lemma rl_mono {A B} (R S : A -> B -> Prop) o o' : rl R o o' -> (forall x y, R x y -> S x y) -> rl S o o'.
Proof. intros [] HS; constructor; auto. Qed.
Definition fl (f f' : nat) : Prop := P \/ f = f'.
Lemma fl_S f f' : fl (S f) (S f') -> fl f f'. Proof. intros [HP|[= ->]]; [by left|by right]. Qed.
Lemma fl_0 {A B} (R : A -> B -> Prop) f o : fl 0 f -> (f = 0 -> o = NoFuel) -> rl R NoFuel o.
Proof. intros [HP| <-] Ho; [by constructor|]. rewrite Ho by done. constructor. Qed.
Lemma fl_1 {A B} (R : A -> B -> Prop) f o : fl (S f) 0 -> rl R o NoFuel.
Proof. intros [HP|?]; [by constructor|done]. Qed.

Section Two.
Variables (b : corr) (h h' : heap V).
Hypothesis HR : hrel b h h'.
Hypothesis HFU : fl (walk_fuel h) (walk_fuel h').
Notation oN := (oR (b true)).
Notation oL := (oR (b false)).

Lemma node_rel {X Y} (R : X -> Y -> Prop) x y k k' p p' : b true x y -> (forall n n', nrel b n n' -> rl R (k n) (k' n')) ->
  rl R (match h_nodes h !! x with Some n => k n | None => p end) (match h_nodes h' !! y with Some n => k' n | None => p' end).
Proof. intros Hx Hk. destruct (hr_N _ _ _ HR x y Hx) as (n & n' & -> & -> & Hn). auto. Qed.
Lemma leaf_rel {X Y} (R : X -> Y -> Prop) x y (k k' : lnode V -> _) p p' : b false x y -> (forall l l', l_key l = l_key l' -> l_val l = l_val l' -> rl R (k l) (k' l')) ->
  rl R (match h_leaves h !! x with Some n => k n | None => p end) (match h_leaves h' !! y with Some n => k' n | None => p' end).
Proof. intros Hx Hk. destruct (hr_L _ _ _ HR x y Hx) as (n & n' & -> & -> & Hn). apply Hk; apply Hn. Qed.
Lemma iter_rel n n' : nrel b n n' -> Forall2 oN (iterChildren n) (iterChildren n').
Proof.
  intros [A1 A2 A3 A4 A5 A6 A7 A8]. unfold iterChildren. rewrite A1, A4, A6. destruct (n_kind n').
  1,2: by apply Forall2_take.
  - clear A6. induction (n_keys n') as [|k ks IH]; cbn; [constructor|]. destruct (k =? 0); [done|]. destruct (oR_default b _ _ (k - 1) A7); [|done]. cbn. by repeat constructor.
  - apply omap_rel in A7. induction A7; cbn; by repeat constructor.
Qed.
Lemma RNo_rel x y : oN x y -> rR b (RNo x) (RNo y). Proof. intros []; by constructor. Qed.
Lemma stack_rel n n' : nrel b n n' -> Forall2 (rR b) (RNo <$> iterChildren n) (RNo <$> iterChildren n').
Proof. intros Hn. apply Forall2_fmap. eapply Forall2_impl; [by apply iter_rel|]. apply RNo_rel. Qed.
Lemma kids_rel n n' : nrel b n n' -> Forall2 (rR b) ((fun c => Some (RN c)) <$> omap id (iterChildren n)) ((fun c => Some (RN c)) <$> omap id (iterChildren n')).
Proof. intros Hn. apply Forall2_fmap. eapply Forall2_impl; [by apply omap_rel, iter_rel|]. by constructor. Qed.

Lemma rr_minimum f : forall f' o o', fl f f' -> oN o o' -> rl oL (minimum f h o) (minimum f' h' o').
Proof.
  induction f as [|f IH]; intros f' o o' Hff Ho; [apply fl_0 with f'; [done|by intros ->]|]. destruct f' as [|f']; [by eapply fl_1|]. apply fl_S in Hff. cbn [minimum]. destruct Ho as [x y Hx|]; [|by repeat constructor].
  apply node_rel; [done|]. intros n n' Hn. rewrite (isLeafN_rel _ _ _ Hn). destruct (isLeafN n'); [constructor; apply Hn|]. destruct (nr_leaf _ _ _ Hn); [by repeat constructor|].
  eapply rl_bindo; [by apply minChild_rel|]. intros c c' Hc. destruct Hc; [|by repeat constructor]. apply IH; [done|]. by constructor.
Qed.
Lemma rr_maximum f : forall f' o o', fl f f' -> oN o o' -> rl oL (maximum f h o) (maximum f' h' o').
Proof.
  induction f as [|f IH]; intros f' o o' Hff Ho; [apply fl_0 with f'; [done|by intros ->]|]. destruct f' as [|f']; [by eapply fl_1|]. apply fl_S in Hff. cbn [maximum]. destruct Ho as [x y Hx|]; [|by repeat constructor].
  apply node_rel; [done|]. intros n n' Hn. rewrite (isLeafN_rel _ _ _ Hn). destruct (isLeafN n'); [constructor; apply Hn|].
  eapply rl_bindo; [by apply maxChild_rel|]. intros c c' Hc. destruct Hc; [|by repeat constructor]. apply IH; [done|]. by constructor.
Qed.
Lemma rr_prefixMismatch x y n n' key depth : b true x y -> nrel b n n' -> rl eq (prefixMismatch h x n key depth) (prefixMismatch h' y n' key depth).
Proof.
  intros Hx Hn. unfold prefixMismatch. rewrite (nr_plen _ _ _ Hn), (nr_partial _ _ _ Hn). apply rl_eq. intros idx. destruct (Nat.ltb idx _); [apply rl_same|]. destruct (Nat.ltb _ _); [|apply rl_same].
  eapply rl_bind; [apply rr_minimum; [done|by constructor]|]. intros lo lo' [la la' Hl|]; [|apply rl_same]. apply leaf_rel; [done|]. intros l l' -> _. apply rl_same.
Qed.
Lemma rr_scanChildren key cs cs' : Forall2 oN cs cs' -> rl oL (scanChildren h key cs) (scanChildren h' key cs').
Proof.
  induction 1 as [|x y cs cs' Hx HF IH]; cbn [scanChildren]; [by repeat constructor|]. destruct Hx as [x y Hx|]; [|done].
  apply node_rel; [done|]. intros n n' Hn. destruct (nr_leaf _ _ _ Hn) as [la la' Hla|]; [|done]. apply leaf_rel; [done|]. intros l l' -> _. destruct (leafMatches _ _); [by repeat constructor|done].
Qed.
Lemma rr_ownLeaf key n n' : nrel b n n' -> rl oL (ownLeaf h key n) (ownLeaf h' key n').
Proof.
  intros Hn. unfold ownLeaf. destruct (nr_leaf _ _ _ Hn) as [la la' Hla|]; [|by repeat constructor].
  apply leaf_rel; [done|]. intros l l' -> _. constructor. destruct (leafMatches _ _); by constructor.
Qed.
Definition sR (r r' : sres) : Prop := match r, r' with Found l, Found l' => b false l l' | Missing a, Missing a' => b true a a' | _, _ => False end.
Lemma rr_searchExit key x y n n' : b true x y -> nrel b n n' -> rl sR (searchExit h key x n) (searchExit h' key y n').
Proof.
  intros Hx Hn. unfold searchExit. eapply rl_bind; [by apply rr_ownLeaf|]. intros la la' [u v Hu|]; [by constructor|].
  eapply rl_bind; [apply rr_scanChildren, Hn|]. intros o o' [u v Hu|]; by constructor.
Qed.
Lemma rr_search f : forall x y key depth, b true x y -> rl sR (search f h x key depth) (search f h' y key depth).
Proof.
  induction f as [|f IH]; intros x y key depth Hx; [constructor|]. cbn [search]. apply node_rel; [done|]. intros n n' Hn. rewrite (isLeafN_rel _ _ _ Hn), (nr_plen _ _ _ Hn), (nr_partial _ _ _ Hn).
  eapply (rl_bind oL). { destruct (isLeafN n'); [by apply rr_ownLeaf|by repeat constructor]. }
  intros o o' [u v Hu|]; [by constructor|]. apply rl_eq. intros pl. destruct (_ && _); [by apply rr_searchExit|].
  destruct (key !! _) as [c|]; [|by apply rr_searchExit]. eapply rl_bindo; [by apply findChild_rel|]. intros [ch i] [ch' i'] [Hc _]. cbn in Hc. destruct Hc as [u v Hu|]; [by apply IH|by apply rr_searchExit].
Qed.
Lemma rr_getFrom x y key : b true x y -> rl eq (getFrom h x key) (getFrom h' y key).
Proof.
  intros Hx. unfold getFrom. eapply rl_bind; [by apply rr_search|]. intros [u|u] [v|v] Hs; try done; [|apply rl_same]. apply leaf_rel; [done|]. intros l l' _ ->. apply rl_same.
Qed.
Lemma rr_lpScan key cs cs' : Forall2 oN cs cs' -> forall last last', oL last last' -> rl oL (lpScan h key last cs) (lpScan h' key last' cs').
Proof.
  induction 1 as [|x y cs cs' Hx HF IH]; intros last last' Hl; cbn [lpScan]; [by repeat constructor|]. destruct Hx as [x y Hx|]; [|by apply IH].
  apply node_rel; [done|]. intros n n' Hn. destruct (nr_leaf _ _ _ Hn) as [la la' Hla|]; [|by apply IH]. apply leaf_rel; [done|]. intros l l' -> _. apply IH. destruct (has_prefix _ _); [by constructor|done].
Qed.
Lemma rr_lpLoop f : forall x y key depth last last', b true x y -> oL last last' -> rl oL (lpLoop f h x key depth last) (lpLoop f h' y key depth last').
Proof.
  induction f as [|f IH]; intros x y key depth last last' Hx Hl; [constructor|]. cbn [lpLoop]. apply node_rel; [done|]. intros n n' Hn. rewrite (nr_plen _ _ _ Hn), (nr_partial _ _ _ Hn).
  apply rl_eq. intros pl. destruct (_ && _); [by constructor|]. destruct (key !! _) as [c|]; [|by constructor].
  eapply (rl_bind oL).
  { destruct (nr_leaf _ _ _ Hn) as [la la' Hla|]; [|by constructor]. apply leaf_rel; [done|]. intros l l' -> _. constructor. destruct (has_prefix _ _); [by constructor|done]. }
  intros last1 last1' Hl1. eapply rl_bind; [apply rr_lpScan; [apply Hn|exact Hl1]|]. intros last2 last2' Hl2.
  eapply rl_bindo; [by apply findChild_rel|]. intros [ch i] [ch' i'] [Hc _]. cbn in Hc. destruct Hc as [u v Hu|]; [by apply IH|by constructor].
Qed.
Lemma rr_leafKV o o' : oL o o' -> rl eq (leafKV h o) (leafKV h' o').
Proof. intros [u v Hu|]; cbn [leafKV]; [|apply rl_same]. apply leaf_rel; [done|]. intros l l' -> ->. apply rl_same. Qed.
Lemma rr_longestPrefix x y k : b true x y -> rl eq (longestPrefixFrom h x k) (longestPrefixFrom h' y k).
Proof.
  intros Hx. unfold longestPrefixFrom. apply node_rel; [done|]. intros n n' Hn. eapply rl_bind; [apply rr_lpLoop; [done|apply Hn]|]. apply rr_leafKV.
Qed.
Lemma rr_treeMinimum t t' : b true (r_root t) (r_root t') -> rl eq (treeMinimum h t) (treeMinimum h' t').
Proof. intros Ht. unfold treeMinimum. eapply rl_bind; [apply rr_minimum; [done|by constructor]|]. apply rr_leafKV. Qed.
Lemma rr_treeMaximum t t' : b true (r_root t) (r_root t') -> rl eq (treeMaximum h t) (treeMaximum h' t').
Proof. intros Ht. unfold treeMaximum. eapply rl_bind; [apply rr_maximum; [done|by constructor]|]. apply rr_leafKV. Qed.
Lemma rr_recursiveWalk {B} (fn : bytes -> V -> B -> B * bool) f : forall f' x y acc, fl f f' -> b true x y -> rl eq (recursiveWalk fn f h x acc) (recursiveWalk fn f' h' y acc).
Proof.
  induction f as [|f IH]; intros f' x y acc Hff Hx; [apply fl_0 with f'; [done|by intros ->]|]. destruct f' as [|f']; [by eapply fl_1|]. apply fl_S in Hff. cbn [recursiveWalk]. apply node_rel; [done|]. intros n n' Hn.
  rewrite (isLeafN_rel _ _ _ Hn). eapply (rl_bind eq).
  { destruct (isLeafN n'); [|apply rl_same]. destruct (nr_leaf _ _ _ Hn) as [la la' Hla|]; [|apply rl_same]. apply leaf_rel; [done|]. intros l l' -> _. apply rl_same. }
  intros [acc1 stop] ? <-. destruct stop; [apply rl_same|]. pose proof (nr_children _ _ _ Hn) as HF. revert acc1.
  induction HF as [|u v cs cs' Hu HF IHc]; intros acc1; [apply rl_same|]. destruct Hu as [u v Hu|]; [|apply IHc].
  eapply rl_bind; [by apply IH|]. intros [acc2 stop] ? <-. destruct stop; [apply rl_same|apply IHc].
Qed.
Lemma rr_treeWalk {B} (fn : bytes -> V -> B -> B * bool) t t' acc : b true (r_root t) (r_root t') -> rl eq (treeWalk fn h t acc) (treeWalk fn h' t' acc).
Proof. intros Ht. unfold treeWalk. eapply rl_bind; [by apply rr_recursiveWalk|]. intros [? ?] ? <-. apply rl_same. Qed.
Lemma rr_dfsNode f : forall f' x y, fl f f' -> b true x y -> rl (Forall2 (b true)) (dfsNode f h x) (dfsNode f' h' y).
Proof.
  induction f as [|f IH]; intros f' x y Hff Hx; [apply fl_0 with f'; [done|by intros ->]|]. destruct f' as [|f']; [by eapply fl_1|]. apply fl_S in Hff. cbn [dfsNode]. apply node_rel; [done|]. intros n n' Hn.
  rewrite (nr_nch _ _ _ Hn). eapply (rl_bind (Forall2 (b true))); [|intros ?? Hr; constructor; by constructor]. generalize (seq 0 (n_nch n')) as is_.
  induction is_ as [|i is_ IHi]; [by repeat constructor|]. eapply rl_bindo; [by apply getChild_rel|]. intros c c' [u v Hu|]; [|exact IHi].
  eapply rl_bind; [by apply IH|]. intros l1 l1' H1. eapply rl_bind; [exact IHi|]. intros l2 l2' H2. constructor. by apply Forall2_app.
Qed.
Lemma rr_shown_by x y : b true x y -> shown_by h x = shown_by h' y.
Proof.
  intros Hx. unfold shown_by. destruct (hr_N _ _ _ HR x y Hx) as (n & n' & -> & -> & Hn). cbn. destruct (nr_leaf _ _ _ Hn) as [la la' Hla|]; [|done]. cbn.
  destruct (hr_L _ _ _ HR la la' Hla) as (l & l' & -> & -> & [_ E1 E2]). cbn. by rewrite E1, E2.
Qed.
Lemma rr_treeDfs t t' : b true (r_root t) (r_root t') -> rl eq (treeDfs h t) (treeDfs h' t').
Proof.
  intros Ht. unfold treeDfs. eapply rl_bind; [by apply rr_dfsNode|]. intros ns ns' Hns. constructor. induction Hns as [|x y ns ns' Hx _ IH]; [done|]. rewrite !fmap_cons, IH. by rewrite (rr_shown_by x y).
Qed.

(** ** Iterators *)
Notation sk := (Forall2 (rR b)).
Definition nxR {I J X} (Q : I -> J -> Prop) (r : option X * I) (r' : option X * J) : Prop := r.1 = r'.1 /\ Q r.2 r'.2.
Definition stR (r r' : option (bytes * V) * list (option ref)) : Prop := r.1 = r'.1 /\ sk r.2 r'.2.
Lemma rr_nextLoop f : forall f' path st st', fl f f' -> sk st st' -> rl stR (nextLoop f h path st) (nextLoop f' h' path st').
Proof.
  induction f as [|f IH]; intros f' path st st' Hff Hst; [apply fl_0 with f'; [done|by intros ->]|]. destruct f' as [|f']; [by eapply fl_1|]. apply fl_S in Hff. cbn [nextLoop].
  destruct Hst as [|e e' st st' He Hst]; [by repeat constructor|]. destruct He as [x y Hx|x y Hx|]; [| |by constructor].
  - apply node_rel; [done|]. intros n n' Hn. assert (Hs : sk ((RNo <$> iterChildren n) ++ st) ((RNo <$> iterChildren n') ++ st')) by (apply Forall2_app; [by apply stack_rel|done]).
    destruct (nr_leaf _ _ _ Hn) as [la la' Hla|]; [|by apply IH]. apply leaf_rel; [done|]. intros l l' -> ->. destruct (hasPrefix _ _); [by constructor|by apply IH].
  - apply leaf_rel; [done|]. intros l l' -> ->. destruct (_ && _); [by constructor|by apply IH].
Qed.
Definition itR (it it' : IterOps.iter) : Prop := it_path it = it_path it' /\ rR b (it_node it) (it_node it') /\ option_Forall2 sk (it_stack it) (it_stack it').
Lemma stackOf_rel o o' : option_Forall2 sk o o' -> sk (stackOf o) (stackOf o').
Proof. intros []; [done|constructor]. Qed.
Lemma rr_iterNext f f' it it' : fl f f' -> itR it it' -> rl (nxR itR) (iterNextF h f it) (iterNextF h' f' it').
Proof.
  intros Hff (Hp & Hn & Hs). unfold iterNextF. rewrite Hp. eapply rl_bind; [by apply rr_nextLoop, stackOf_rel|]. intros [r st] [r' st'] [E Hst]. cbn in *. constructor. split; [done|]. split_and!; [done|done|by constructor].
Qed.
Lemma itR_new x y : b true x y -> itR (newIter x) (newIter y).
Proof. intros Hx. split_and!; [done|by constructor|constructor]. Qed.
Lemma rr_seekLoop f : forall x y prefix depth, b true x y -> rl (b true) (seekLoop f h x prefix depth) (seekLoop f h' y prefix depth).
Proof.
  induction f as [|f IH]; intros x y prefix depth Hx; [constructor|]. cbn [seekLoop]. apply node_rel; [done|]. intros n n' Hn. rewrite (isLeafN_rel _ _ _ Hn), (nr_plen _ _ _ Hn).
  eapply (rl_bind eq).
  { destruct (_ && _); [|apply rl_same]. eapply rl_bind; [by apply rr_prefixMismatch|]. intros m ? <-. apply rl_same. }
  intros [stop dp] ? <-. destruct stop; [by constructor|]. destruct (prefix !! dp) as [c|]; [|by constructor].
  eapply rl_bindo; [by apply findChild_rel|]. intros [ch i] [ch' i'] [Hc _]. cbn in Hc. destruct Hc as [u v Hu|]; [by apply IH|by constructor].
Qed.
Lemma rr_seekPrefix it it' p : itR it it' -> rl itR (seekPrefix h it p) (seekPrefix h' it' p).
Proof.
  intros (Hp & Hn & Hs). unfold seekPrefix. destruct Hn as [x y Hx|x y Hx|]; [|constructor..]. eapply rl_bind; [by apply rr_seekLoop|].
  intros u v Hu. constructor. split_and!; [done|by constructor|]. by repeat constructor.
Qed.
Lemma rr_pathNextLoop f : forall f' path st st', fl f f' -> sk st st' -> rl stR (pathNextLoop f h path st) (pathNextLoop f' h' path st').
Proof.
  induction f as [|f IH]; intros f' path st st' Hff Hst; [apply fl_0 with f'; [done|by intros ->]|]. destruct f' as [|f']; [by eapply fl_1|]. apply fl_S in Hff. cbn [pathNextLoop].
  destruct Hst as [|e e' st st' He Hst]; [by repeat constructor|]. destruct He as [x y Hx|x y Hx|]; [| |by constructor].
  - apply node_rel; [done|]. intros n n' Hn. apply IH; [done|]. apply Forall2_app; [|apply Forall2_app; [by apply kids_rel|done]].
    destruct (nr_leaf _ _ _ Hn) as [la la' Hla|]; [|constructor]. by repeat constructor.
  - apply leaf_rel; [done|]. intros l l' -> ->. destruct (prefixContainsMatch _ _); [by constructor|by apply IH].
Qed.
Definition piR (it it' : piter) : Prop := pi_path it = pi_path it' /\ sk (pi_stack it) (pi_stack it').
Lemma rr_pathNext f f' it it' : fl f f' -> piR it it' -> rl (nxR piR) (pathNextF h f it) (pathNextF h' f' it').
Proof.
  intros Hff [Hp Hs]. unfold pathNextF. rewrite Hp. eapply rl_bind; [by apply rr_pathNextLoop|]. intros [r st] [r' st'] [E Hst]. cbn in *. by constructor.
Qed.
Lemma piR_new x y p : b true x y -> piR (newPathIter x p) (newPathIter y p).
Proof. intros Hx. split; [done|]. by repeat constructor. Qed.
Lemma rr_lowerNextLoop f : forall f' st st', fl f f' -> sk st st' -> rl stR (lowerNextLoop f h st) (lowerNextLoop f' h' st').
Proof.
  induction f as [|f IH]; intros f' st st' Hff Hst; [apply fl_0 with f'; [done|by intros ->]|]. destruct f' as [|f']; [by eapply fl_1|]. apply fl_S in Hff. cbn [lowerNextLoop].
  destruct Hst as [|e e' st st' He Hst]; [by repeat constructor|]. destruct He as [x y Hx|x y Hx|]; [| |by constructor].
  - apply node_rel; [done|]. intros n n' Hn. assert (Hs : sk ((RNo <$> iterChildren n) ++ st) ((RNo <$> iterChildren n') ++ st')) by (apply Forall2_app; [by apply stack_rel|done]).
    destruct (nr_leaf _ _ _ Hn) as [la la' Hla|]; [|by apply IH]. apply leaf_rel; [done|]. intros l l' -> ->. by constructor.
  - apply leaf_rel; [done|]. intros l l' -> ->. by constructor.
Qed.
Definition liR (it it' : liter) : Prop := oN (li_node it) (li_node it') /\ sk (li_stack it) (li_stack it').
Lemma rr_lowerNext f f' it it' : fl f f' -> liR it it' -> rl (nxR liR) (lowerNextF h f it) (lowerNextF h' f' it').
Proof.
  intros Hff [Hn Hs]. unfold lowerNextF. eapply rl_bind; [by apply rr_lowerNextLoop|]. intros [r st] [r' st'] [E Hst]. cbn in *. by constructor.
Qed.
Definition lfR (o o' : option (addr * bytes)) : Prop := match o, o' with Some (a, k), Some (a', k') => b false a a' /\ k = k' | None, None => True | _, _ => False end.
Lemma rr_leafOf n n' : nrel b n n' -> rl lfR (leafOf h n) (leafOf h' n').
Proof.
  intros Hn. unfold leafOf. destruct (nr_leaf _ _ _ Hn) as [la la' Hla|]; [|by constructor]. apply leaf_rel; [done|]. intros l l' -> _. by constructor.
Qed.
Lemma rr_nodeOf x y : b true x y -> rl (nrel b) (nodeOf h x) (nodeOf h' y).
Proof. intros Hx. unfold nodeOf. apply node_rel; [done|]. intros n n' Hn. by constructor. Qed.
Lemma rr_pushParent path np p p' st st' : oN p p' -> sk st st' -> rl sk (pushParent h path np p st) (pushParent h' path np p' st').
Proof.
  intros Hp Hst. unfold pushParent. destruct Hp as [x y Hx|]; [|destruct np; by constructor].
  eapply rl_bind; [by apply rr_nodeOf|]. intros pn pn' Hpn. eapply rl_bind; [by apply rr_leafOf|]. intros [[la k]|] [[la' k']|] Hl; try done; constructor; [|done].
  destruct Hl as [Hl ->]. destruct (bytes_geb _ _); [by repeat constructor|done].
Qed.
Lemma rr_pushKids path np n n' is_ : nrel b n n' -> forall st st', sk st st' -> rl sk (pushKids h path np n is_ st) (pushKids h' path np n' is_ st').
Proof.
  intros Hn. induction is_ as [|i is_ IH]; intros st st' Hst; cbn [pushKids]; [by constructor|]. eapply rl_bindo; [by apply getChild_rel|].
  intros c c' [x y Hx|]; [|destruct np; [by constructor|by apply IH]].
  eapply rl_bind; [by apply rr_nodeOf|]. intros cn cn' Hcn. eapply rl_bind; [by apply rr_leafOf|]. intros [[la k]|] [[la' k']|] Hl; try done; apply IH; [|by repeat constructor].
  destruct Hl as [Hl ->]. destruct (bytes_geb _ _); [by repeat constructor|done].
Qed.
Lemma R_pushFound path x y lf lf' st st' : b true x y -> lfR lf lf' -> sk st st' -> sk (pushFound path x lf st) (pushFound path y lf' st').
Proof. intros Hx Hl Hst. unfold pushFound. destruct lf as [[u k]|], lf' as [[v k']|]; try done; [destruct Hl as [Hl ->]; destruct (bytes_geb _ _)|]; by repeat constructor. Qed.
Definition sbR (r r' : list (option ref) * bool) : Prop := sk r.1 r'.1 /\ r.2 = r'.2.
Lemma rr_keepNode o o' : rl sk o o' -> rl sbR (keepNode o) (keepNode o').
Proof. intros Ho. unfold keepNode. eapply rl_bind; [exact Ho|]. intros u v Hu. by constructor. Qed.
Lemma lb48_rel n n' is_ : nrel b n n' -> lb48 n is_ = lb48 n' is_.
Proof.
  intros Hn. induction is_ as [|i is_ IH]; cbn [lb48]; [done|]. rewrite (getKeyAtIdx_rel _ _ _ i Hn). destruct (getKeyAtIdx n' i) as [k| |]; cbn; [|done..]. destruct (k =? 0); [done|].
  destruct (getChild_rel _ _ _ (k - 1) Hn) as [c c' Hc| |]; cbn; [|done..]. by destruct Hc.
Qed.
Lemma lb256_rel n n' is_ : nrel b n n' -> lb256 n is_ = lb256 n' is_.
Proof.
  intros Hn. induction is_ as [|i is_ IH]; cbn [lb256]; [done|]. destruct (getChild_rel _ _ _ i Hn) as [c c' Hc| |]; cbn; [|done..]. by destruct Hc.
Qed.
Lemma lower_rel n n' c : nrel b n n' -> getLowerBoundCh n c = getLowerBoundCh n' c.
Proof.
  intros Hn. unfold getLowerBoundCh. rewrite (nr_kind _ _ _ Hn), (nr_keys _ _ _ Hn), (nr_nch _ _ _ Hn). destruct (n_kind n'); try done; [by apply lb48_rel|by apply lb256_rel].
Qed.
Lemma takePartial_rel n n' : nrel b n n' -> takePartial n = takePartial n'.
Proof. intros Hn. unfold takePartial. by rewrite (nr_plen _ _ _ Hn), (nr_partial _ _ _ Hn). Qed.
Lemma rr_lowerLoop f : forall path node node' parent parent' depth seen st st', oN node node' -> oN parent parent' -> sk st st' ->
  rl sbR (lowerLoop f h path node parent depth seen st) (lowerLoop f h' path node' parent' depth seen st').
Proof.
  induction f as [|f IH]; intros path node node' parent parent' depth seen st st' Hnode Hpar Hst; [constructor|]. cbn [lowerLoop].
  destruct Hnode as [x y Hx|].
  2:{ destruct Hpar as [p p' Hp|]; [|by constructor]. eapply rl_bind; [by apply rr_nodeOf|]. intros pn pn' Hpn. eapply rl_bind; [by apply rr_leafOf|].
      intros [[la k]|] [[la' k']|] Hl; try done; constructor; split; try done. destruct Hl as [Hl ->]. by repeat constructor. }
  eapply rl_bind; [by apply rr_nodeOf|]. intros n n' Hn. eapply rl_bind; [by apply rr_leafOf|]. intros lf lf' Hlf.
  rewrite (isLeafN_rel _ _ _ Hn), (takePartial_rel _ _ Hn), (nr_plen _ _ _ Hn), (nr_nch _ _ _ Hn). apply rl_eq. intros cmp.
  assert (Hg : match lf with Some (_, k) => bytes_geb k path | None => false end = match lf' with Some (_, k) => bytes_geb k path | None => false end).
  { destruct lf as [[? ?]|], lf' as [[? ?]|]; try done. by destruct Hlf as [_ ->]. }
  rewrite Hg.
  assert (K1 : rl sbR (keepNode (pushParent h path false parent (pushFound path x lf st))) (keepNode (pushParent h' path false parent' (pushFound path y lf' st')))).
  { apply rr_keepNode, rr_pushParent; [done|]. by apply R_pushFound. }
  assert (K2 : rl sbR (let? s := pushParent h path false parent st in Ok (s, true)) (let? s := pushParent h' path false parent' st' in Ok (s, true))).
  { eapply rl_bind; [by apply rr_pushParent|]. intros s s' Hs. by constructor. }
  match goal with |- rl _ (match cmp with Eq => ?m | Lt => _ | Gt => _ end) (match cmp with Eq => ?m' | Lt => _ | Gt => _ end) => cut (rl sbR m m') end.
  { intros K3. destruct cmp; [exact K3| |]; destruct seen; try exact K3; done. }
  destruct (_ && _); [exact K1|]. eapply rl_bind; [by apply rr_prefixMismatch|]. intros m ? <-. destruct (_ && negb seen); [by constructor|].
  destruct (path !! _) as [c|]; [|exact K1]. rewrite (lower_rel _ _ _ Hn). apply rl_eq. intros idx. destruct idx as [idx|].
  - eapply (rl_bind lfR).
    { destruct Hpar as [p p' Hp|]; [|by constructor]. eapply rl_bind; [by apply rr_nodeOf|]. intros pn pn' Hpn. by apply rr_leafOf. }
    intros pl pl' Hpl.
    assert (K4 : forall i, rl sbR
      (let? stack := pushKids h path false n (reverse (seq (i + 1) (n_nch n' - (i + 1)))) st in
       let? k := getKeyAtIdx n i in let? ch := getChild n i in
       lowerLoop f h path ch (Some x) (depth + n_plen n' + 1) ((seen || Nat.ltb 0 m) || negb (Nat.eqb k c)) stack)
      (let? stack := pushKids h' path false n' (reverse (seq (i + 1) (n_nch n' - (i + 1)))) st' in
       let? k := getKeyAtIdx n' i in let? ch := getChild n' i in
       lowerLoop f h' path ch (Some y) (depth + n_plen n' + 1) ((seen || Nat.ltb 0 m) || negb (Nat.eqb k c)) stack)).
    { intros i. eapply rl_bind; [by apply rr_pushKids|]. intros st1 st1' Hst1. rewrite (getKeyAtIdx_rel _ _ _ i Hn). apply rl_eq. intros k. eapply rl_bindo; [by apply getChild_rel|].
      intros ch ch' Hch. apply IH; [done|by constructor|done]. }
    destruct (seen || Nat.ltb 0 m); [|destruct pl, pl'; apply K4]. destruct pl as [[pla pk]|], pl' as [[pla' pk']|]; [|by destruct Hpl..|apply K4]. destruct Hpl as [Hpl ->].
    eapply (rl_bind sk). { destruct (match lf' with Some (_, k) => _ | None => false end); [by repeat constructor|by apply rr_pushKids]. }
    intros st1 st1' Hst1. constructor. split; [|done]. cbn. destruct (bytes_geb _ _); [by repeat constructor|done].
  - destruct (negb _); [by constructor|]. eapply (rl_bind sk).
    { destruct lf as [[la k]|], lf' as [[la' k']|]; try done; [|by apply rr_pushKids]. destruct Hlf as [Hlf ->]. constructor. destruct (bytes_geb _ _); [by repeat constructor|done]. }
    intros st1 st1' Hst1. apply rr_keepNode. by apply rr_pushParent.
Qed.
Lemma rr_seekLowerBound it it' key : liR it it' -> rl liR (seekLowerBound h it key) (seekLowerBound h' it' key).
Proof.
  intros [Hn Hs]. unfold seekLowerBound. destruct key as [|c key]; [constructor; split; [done|]; repeat constructor; by apply RNo_rel|].
  eapply rl_bind; [apply rr_lowerLoop; [exact Hn|constructor|constructor]|]. intros [st cl] [st' cl'] [Hst Ec]. cbn in Hst, Ec. subst cl'. constructor. split; [|done]. destruct cl; [constructor|done].
Qed.
Lemma liR_new x y : b true x y -> liR (newLowerIter x) (newLowerIter y).
Proof. intros Hx. split; by constructor. Qed.
Lemma exp_rel x y exp exp' : b true x y -> Forall2 (b true) exp exp' -> bool_decide (x ∈ exp) = bool_decide (y ∈ exp').
Proof.
  intros Hx He. apply bool_decide_ext. induction He as [|u v exp exp' Hu He IH]; [by rewrite !elem_of_nil|]. rewrite !elem_of_cons, IH.
  by rewrite (hr_bij _ _ _ HR _ _ _ _ _ Hx Hu).
Qed.
Lemma rr_prevLoop f : forall f' path exp exp' st st', fl f f' -> Forall2 (b true) exp exp' -> sk st st' -> rl stR (prevLoop f h path exp st) (prevLoop f' h' path exp' st').
Proof.
  induction f as [|f IH]; intros f' path exp exp' st st' Hff He Hst; [apply fl_0 with f'; [done|by intros ->]|]. destruct f' as [|f']; [by eapply fl_1|]. apply fl_S in Hff. cbn [prevLoop].
  destruct Hst as [|e e' st st' Hee Hst]; [by repeat constructor|]. destruct Hee as [x y Hx|x y Hx|]; [| |by constructor].
  - apply node_rel; [done|]. intros n n' Hn.
    eapply (rl_bind (fun lf lf' : option (addr * lnode V) => match lf, lf' with Some (la, l), Some (la', l') => b false la la' /\ l_key l = l_key l' /\ l_val l = l_val l' | None, None => True | _, _ => False end)).
    { destruct (nr_leaf _ _ _ Hn) as [la la' Hla|]; [|by constructor]. apply leaf_rel; [done|]. intros l l' E1 E2. by constructor. }
    intros lf lf' Hlf. set (st1 := match lf with Some (la, l) => _ | None => st end). set (st1' := match lf' with Some (la, l) => _ | None => st' end).
    assert (Hst1 : sk st1 st1'). { subst st1 st1'. destruct lf as [[la l]|], lf' as [[la' l']|]; try done. destruct Hlf as (Hl & -> & _). destruct (_ || _); [by repeat constructor|done]. }
    rewrite (exp_rel x y exp exp') by done. destruct (bool_decide _); [by apply IH|].
    assert (Hst2 : sk (reverse (RNo <$> iterChildren n) ++ st1) (reverse (RNo <$> iterChildren n') ++ st1')). { apply Forall2_app; [|done]. by apply Forall2_reverse, stack_rel. }
    destruct lf as [[la l]|], lf' as [[la' l']|]; try done; [|by apply IH]. destruct Hlf as (Hl & -> & ->). destruct (hasPrefix _ _); [by constructor|by apply IH].
  - apply leaf_rel; [done|]. intros l l' -> ->. destruct (bytes_leb _ _); [by constructor|by apply IH].
Qed.
Definition riR (ri ri' : riter) : Prop := itR (ri_it ri) (ri_it ri') /\ Forall2 (b true) (ri_exp ri) (ri_exp ri').
Lemma rr_prev f f' ri ri' : fl f f' -> riR ri ri' -> rl (nxR riR) (prevF h f ri) (prevF h' f' ri').
Proof.
  intros Hff [(Hp & Hn & Hs) He]. unfold prevF. rewrite Hp. eapply rl_bind.
  { apply rr_prevLoop; [done|done|]. destruct Hs as [st st' Hst|]; [done|]. destruct Hn; by repeat constructor. }
  intros [r st] [r' st'] [E Hst]. cbn in *. constructor. split; [done|]. split; [|done]. cbn. split_and!; [done|done|]. destruct Hs; cbn; [by constructor|]. destruct Hn; by constructor.
Qed.
Lemma riR_new x y : b true x y -> riR (newRevIter x) (newRevIter y).
Proof. intros Hx. split; [by apply itR_new|constructor]. Qed.
Lemma rr_revSeekPrefix ri ri' p : riR ri ri' -> rl riR (revSeekPrefix h ri p) (revSeekPrefix h' ri' p).
Proof. intros [Hi He]. unfold revSeekPrefix. eapply rl_bind; [by apply rr_seekPrefix|]. intros it it' Hit. by constructor. Qed.
Definition seR (r r' : list (option ref) * list addr) : Prop := sk r.1 r'.1 /\ Forall2 (b true) r.2 r'.2.
Lemma rr_revLoop f : forall key prefix spare node node' depth seen exp exp' st st', oN node node' -> Forall2 (b true) exp exp' -> sk st st' ->
  rl seR (revLoop f h key prefix spare node depth seen exp st) (revLoop f h' key prefix spare node' depth seen exp' st').
Proof.
  induction f as [|f IH]; intros key prefix spare node node' depth seen exp exp' st st' Hnode He Hst; [constructor|]. cbn [revLoop].
  destruct Hnode as [x y Hx|]; [|by constructor]. eapply rl_bind; [by apply rr_nodeOf|]. intros n n' Hn. eapply rl_bind; [by apply rr_leafOf|]. intros lf lf' Hlf.
  rewrite (isLeafN_rel _ _ _ Hn), (takePartial_rel _ _ Hn), (nr_plen _ _ _ Hn), (nr_nch _ _ _ Hn).
  apply rl_eq. intros part. apply rl_eq. intros cmp.
  assert (Hcons : sk (Some (RN x) :: st) (Some (RN y) :: st')) by by repeat constructor.
  assert (Hlfs : sk (match lf with Some (la, _) => Some (RL la) :: st | None => st end) (match lf' with Some (la, _) => Some (RL la) :: st' | None => st' end)).
  { destruct lf as [[? ?]|], lf' as [[? ?]|]; try done. destruct Hlf. by repeat constructor. }
  assert (Hg : match lf with Some (_, k) => bytes_eqb (getKey k) key || bytes_leb (getKey k) key | None => false end = match lf' with Some (_, k) => bytes_eqb (getKey k) key || bytes_leb (getKey k) key | None => false end).
  { destruct lf as [[? ?]|], lf' as [[? ?]|]; try done. by destruct Hlf as [_ ->]. }
  rewrite Hg.
  match goal with |- rl _ (match cmp with Eq => ?m | Lt => _ | Gt => _ end) (match cmp with Eq => ?m' | Lt => _ | Gt => _ end) => cut (rl seR m m') end.
  { intros K3. destruct cmp; [exact K3|by constructor|]. destruct seen; [exact K3|by constructor]. }
  destruct (isLeafN n' && _); [by constructor|]. eapply (rl_bind eq).
  { destruct (Nat.ltb _ _); [|apply rl_same]. eapply rl_bind; [by apply rr_prefixMismatch|]. intros m ? <-. apply rl_same. }
  intros [m plen] ? <-. destruct (_ && (_ && _)); [by constructor|]. destruct (prefix !! _) as [c|]; [|by constructor].
  rewrite (lower_rel _ _ _ Hn). apply rl_eq. intros idx. cbn zeta.
  match goal with |- rl _ (obind ?o _) (obind ?o' _) => replace o with o' end.
  2: { match goal with |- match ?X with Some _ => _ | None => _ end = _ => destruct X as [i|]; [|done] end. by rewrite (getKeyAtIdx_rel _ _ _ i Hn). }
  apply rl_eq. intros seen1.
  assert (Hst1 : sk (match lf with Some _ => Some (RN x) :: st | None => st end) (match lf' with Some _ => Some (RN y) :: st' | None => st' end)) by (destruct lf as [[? ?]|], lf' as [[? ?]|]; done).
  destruct (if seen1 then _ else _) as [i|]; [|by constructor].
  eapply (rl_bind sk).
  { revert Hst1. generalize (match lf with Some _ => Some (RN x) :: st | None => st end) as st1. generalize (match lf' with Some _ => Some (RN y) :: st' | None => st' end) as st1'. generalize (seq 0 i) as l.
    induction l as [|j l IHl]; intros st1' st1 Hst1; [by constructor|]. eapply rl_bindo; [by apply getChild_rel|]. intros ch ch' Hch. apply IHl. destruct Hch; [by repeat constructor|done]. }
  intros st2 st2' Hst2. eapply rl_bindo; [by apply getChild_rel|]. intros ch ch' Hch. apply IH; [done|by constructor|done].
Qed.
Lemma rr_seekReverse ri ri' key spare : riR ri ri' -> rl riR (seekReverseLowerBound h ri key spare) (seekReverseLowerBound h' ri' key spare).
Proof.
  intros [(Hp & Hn & Hs) He]. unfold seekReverseLowerBound. eapply rl_bind.
  { apply rr_revLoop; [|done|constructor]. destruct Hn; by constructor. }
  intros [st exp] [st' exp'] [Hst He']. constructor. split; [|done]. split_and!; [done|constructor|by constructor].
Qed.
End Two.
End Rl.
End ReadRel.
