(** The invariant of all client histories that do not write through a transaction after publishing it. *)
From Verif Require Export Views.
From stdpp Require Import list.
Local Open Scope nat_scope.

(** ** Specification: which calls write through a transaction, and which publish it *)
Section Spec.
Context {V : Type}.
(** the transaction that a call updates *)
Definition updates (c : call V) : option nat :=
  match c with CTInsert j _ _ | CTDelete j _ | CTDeletePrefix j _ => Some j | _ => None end.
(** the transaction whose current tree a call hands out: Commit, CommitOnly, Clone *)
Definition publishes (c : call V) : option nat :=
  match c with CCommit j | CCommitOnly j | CTClone j => Some j | _ => None end.
(** No transaction is updated after it has been committed or cloned. *)
Definition disciplined (cs : list (call V)) : Prop :=
  forall p q c d j, p < q -> cs !! p = Some c -> cs !! q = Some d -> publishes c = Some j -> updates d <> Some j.
End Spec.

Section WorldInv.
Context {V : Type} `{GoZero V}.
Notation HM := (M (heap V)).
Notation TM := (M (st V)).

Definition tv (t : rtree) : view := mkV (r_root t) (r_max t) None.
Definition jv (f : bool) (t : txn) : view := mkV (t_root t) (t_max t) (if f then None else Some (t_oldmax t)).
Definition views (ts : list rtree) (xs : list txn) (fr : nat -> bool) (x : who) : option view :=
  match x with T i => tv <$> ts !! i | X j => jv (fr j) <$> xs !! j end.
Definition wviews (w : world V) (fr : nat -> bool) := views (w_trees w) (w_txns w) fr.
Definition frozen (c : call V) (fr : nat -> bool) (j : nat) : bool :=
  fr j || match publishes c with Some k => Nat.eqb k j | None => false end.
Definition inv (w : world V) (fr : nat -> bool) : Prop := WI (er_h (w_h w)) (wviews w fr).

(** What a step leaves alone: every tree, and every transaction it does not update. *)
Definition keeps_tree (w w' : world V) : Prop :=
  forall i t, w_trees w !! i = Some t -> w_trees w' !! i = Some t /\ same (r_root t) (er_h (w_h w)) (er_h (w_h w')).
Definition keeps_txn (w w' : world V) (j : nat) : Prop :=
  forall x, w_txns w !! j = Some x -> (exists x', w_txns w' !! j = Some x' /\ er_t x' = er_t x) /\ same (t_root x) (er_h (w_h w)) (er_h (w_h w')).
Definition good (c : call V) (w w' : world V) (fr : nat -> bool) : Prop :=
  inv w' (frozen c fr) /\ keeps_tree w w' /\ (forall j, updates c <> Some j -> keeps_txn w w' j).

Lemma frozen_none c fr : publishes c = None -> forall j, frozen c fr j = fr j.
Proof. intros E j. unfold frozen. rewrite E. apply orb_false_r. Qed.

(** A step that changes nothing but channels, and transaction bookkeeping. *)
Lemma good_quiet c w w' fr : inv w fr -> er_h (w_h w') = er_h (w_h w) -> w_trees w' = w_trees w ->
  er_t <$> w_txns w' = er_t <$> w_txns w -> good c w w' fr.
Proof.
  intros W E1 E2 E3.
  assert (Hx : forall j x', w_txns w' !! j = Some x' -> exists x, w_txns w !! j = Some x /\ er_t x' = er_t x).
  { intros j x' Hj. apply (f_equal (fun l : list txn => l !! j)) in E3. rewrite !list_lookup_fmap, Hj in E3. cbn in E3.
    destruct (w_txns w !! j) as [x|]; [|done]. exists x. split; [done|]. exact (f_equal (default (er_t x)) E3). }
  assert (Hx' : forall j x, w_txns w !! j = Some x -> exists x', w_txns w' !! j = Some x' /\ er_t x' = er_t x).
  { intros j x Hj. apply (f_equal (fun l : list txn => l !! j)) in E3. rewrite !list_lookup_fmap, Hj in E3. cbn in E3.
    destruct (w_txns w' !! j) as [x'|]; [|done]. exists x'. split; [done|]. exact (f_equal (default (er_t x')) E3). }
  split_and!.
  - unfold inv. rewrite E1. eapply WI_sub; [exact W|]. unfold wviews, views. rewrite E2. intros [i|j] v' Hv; [exists v'; auto|].
    destruct (w_txns w' !! j) as [x'|] eqn:Ej; [|done]. cbn in Hv. injection Hv as <-. destruct (Hx _ _ Ej) as (x & Hj & Ex).
    exists (jv (fr j) x). rewrite Hj. split; [done|]. unfold er_t in Ex. injection Ex as F1 F2 F3 F4 F5. unfold jv. cbn. rewrite F1, F3, F5. split_and!; [done..|].
    unfold frozen. destruct (fr j); cbn; [by left|]. destruct (publishes c) as [k|]; [destruct (Nat.eqb k j)|]; auto.
  - intros i t Hi. rewrite E1, E2. split; [done|apply same_refl].
  - intros j Hu x Hj. rewrite E1. split; [by apply Hx'|apply same_refl].
Qed.

Lemma lookup_snoc_inv {A} (l : list A) (a b : A) i : (l ++ [a]) !! i = Some b -> (l !! i = Some b) \/ (i = length l /\ b = a).
Proof.
  intros E. apply lookup_app_Some in E as [E|[Hl E]]; [by left|]. right. destruct (i - length l) eqn:Ed; cbn in E; [|done]. injection E as ->. split; [lia|done].
Qed.

(** A step that appends a tree with a new root. *)
Lemma good_addtree c w fr h' t : inv w fr -> publishes c = None ->
  WI (er_h h') (fun x => if decide (x = T (length (w_trees w))) then Some (tv t) else wviews w fr x) ->
  (forall x v, wviews w fr x = Some v -> same (v_root v) (er_h (w_h w)) (er_h h')) ->
  good c w (mkW h' (w_trees w ++ [t]) (w_txns w)) fr.
Proof.
  intros W Hp W' Hs. split_and!.
  - unfold inv. cbn. eapply WI_sub; [exact W'|]. unfold wviews, views. cbn. intros [i|j] v' Hv.
    + destruct ((w_trees w ++ [t]) !! i) as [t'|] eqn:Ei; [|done]. cbn in Hv. injection Hv as <-.
      apply lookup_snoc_inv in Ei as [Ei|[-> ->]]; [|exists (tv t); rewrite decide_True by done; auto].
      exists (tv t'). rewrite decide_False; [rewrite Ei; auto|]. intros [= ->]. apply lookup_lt_Some in Ei. lia.
    + exists v'. rewrite (frozen_none _ _ Hp) in Hv. rewrite decide_False by done. auto.
  - intros i t' Hi. cbn. split; [by apply lookup_app_l_Some|]. apply (Hs (T i) (tv t')). cbn. by rewrite Hi.
  - intros j _ x Hj. cbn. split; [eauto|]. apply (Hs (X j) (jv (fr j) x)). cbn. by rewrite Hj.
Qed.
(** A step that appends a transaction with a new root. *)
Lemma good_addtxn c w fr h' x0 : inv w fr ->
  WI (er_h h') (fun x => if decide (x = X (length (w_txns w))) then Some (xv x0) else wviews w (frozen c fr) x) ->
  (forall x v, wviews w (frozen c fr) x = Some v -> same (v_root v) (er_h (w_h w)) (er_h h')) ->
  good c w (mkW h' (w_trees w) (w_txns w ++ [x0])) fr.
Proof.
  intros W W' Hs. split_and!.
  - unfold inv. cbn. eapply WI_sub; [exact W'|]. unfold wviews, views. cbn. intros [i|j] v' Hv.
    + exists v'. rewrite decide_False by done. auto.
    + destruct ((w_txns w ++ [x0]) !! j) as [t'|] eqn:Ei; [|done]. cbn in Hv. injection Hv as <-.
      apply lookup_snoc_inv in Ei as [Ei|[-> ->]].
      * exists (jv (frozen c fr j) t'). rewrite decide_False; [rewrite Ei; auto|]. intros [= ->]. apply lookup_lt_Some in Ei. lia.
      * exists (xv x0). rewrite decide_True by done. split_and!; [done..|]. unfold jv. cbn. destruct (frozen _ _ _); auto.
  - intros i t' Hi. cbn. split; [done|]. apply (Hs (T i) (tv t')). cbn. by rewrite Hi.
  - intros j _ x Hj. cbn. split; [exists x; split; [by apply lookup_app_l_Some|done]|].
    apply (Hs (X j) (jv (frozen c fr j) x)). cbn. by rewrite Hj.
Qed.
(** A step that updates transaction j. *)
Lemma good_update c w fr j x h' x' : inv w fr -> publishes c = None -> updates c = Some j -> w_txns w !! j = Some x ->
  WI (er_h h') (fun y => if decide (y = X j) then Some (xv x') else wviews w fr y) ->
  (forall y v, y <> X j -> wviews w fr y = Some v -> same (v_root v) (er_h (w_h w)) (er_h h')) ->
  good c w (mkW h' (w_trees w) (<[j := x']> (w_txns w))) fr.
Proof.
  intros W Hp Hu Hj W' Hs. assert (Hjl : j < length (w_txns w)) by by apply lookup_lt_Some in Hj. split_and!.
  - unfold inv. cbn. eapply WI_sub; [exact W'|]. unfold wviews, views. cbn. intros [i|k] v' Hv.
    + exists v'. rewrite decide_False by done. auto.
    + rewrite (frozen_none _ _ Hp) in Hv. destruct (decide (k = j)) as [->|Hne].
      * rewrite list_lookup_insert in Hv by done. injection Hv as <-. exists (xv x'). rewrite decide_True by done. split_and!; [done..|].
        unfold jv. cbn. destruct (fr j); auto.
      * rewrite list_lookup_insert_ne in Hv by done. exists v'. rewrite decide_False by congruence. auto.
  - intros i t' Hi. cbn. split; [done|]. apply (Hs (T i) (tv t')); [done|]. cbn. by rewrite Hi.
  - intros k Hk y Hy. assert (k <> j) by congruence. cbn. rewrite list_lookup_insert_ne by done. split; [eauto|].
    apply (Hs (X k) (jv (fr k) y)); [congruence|]. cbn. by rewrite Hy.
Qed.
(** A step that publishes transaction j as a tree. *)
Lemma good_publish c w fr j x h' xs' : inv w fr -> publishes c = Some j -> w_txns w !! j = Some x -> er_h h' = er_h (w_h w) ->
  er_t <$> xs' = er_t <$> w_txns w -> good c w (mkW h' (w_trees w ++ [commitOnly x]) xs') fr.
Proof.
  intros W Hp Hj Eh Ex.
  destruct (good_quiet c w (mkW h' (w_trees w) xs') fr W Eh eq_refl Ex) as (W1 & K1 & K2). split_and!.
  - unfold inv in *. cbn in *. eapply (WI_map _ _ _ (fun y => if decide (y = T (length (w_trees w))) then X j else y)); [exact W1|].
    unfold wviews, views. cbn. intros y v' Hv. destruct (decide (y = T (length (w_trees w)))) as [->|Hne].
    + rewrite lookup_app_r, Nat.sub_diag in Hv by lia. cbn in Hv. injection Hv as <-.
      apply (f_equal (fun l : list txn => l !! j)) in Ex. rewrite !list_lookup_fmap, Hj in Ex. cbn in Ex. destruct (xs' !! j) as [x'|] eqn:Ej; [|done].
      cbn in Ex. injection Ex as F1 F2 F3 F4 F5. eexists. split; [reflexivity|]. split; [done|]. split; [done|]. by intros o.
    + destruct y as [i|k].
      * destruct ((w_trees w ++ [commitOnly x]) !! i) as [t'|] eqn:Ei; [|done]. cbn in Hv. injection Hv as <-.
        apply lookup_snoc_inv in Ei as [Ei|[-> ->]]; [|done]. exists (tv t'). rewrite Ei. split_and!; [done..|]. by intros o.
      * destruct (xs' !! k) as [x'|] eqn:Ek; [|done]. cbn in Hv. injection Hv as <-. eexists. split; [reflexivity|]. split; [done|]. split; [done|].
        intros o Ho. split; [done|]. intros [i'|k'] u' Hu; destruct (decide _) as [E|E]; try done.
        intros [= <-]. cbn in Ho. unfold frozen in Ho. rewrite Hp, Nat.eqb_refl, orb_true_r in Ho. done.
  - intros i t Hi. destruct (K1 i t Hi) as [E1 E2]. cbn in *. split; [by apply lookup_app_l_Some|done].
  - exact K2.
Qed.

Ltac splitp Hs E1 E2 := pose proof (f_equal fst Hs) as E1; pose proof (f_equal snd Hs) as E2; clear Hs; cbn [fst snd omapo] in E1, E2; unfold id in E1.
(** ** The programs *)
Lemma quiet_N a (h : heap V) : er_h (getMutateChN a h).2 = er_h h.
Proof.
  destruct (h_nodes h !! a) as [n|] eqn:E; [|unfold getMutateChN, bind, hloadN; by rewrite E].
  destruct (getMutateChN_ok h a n E) as (c & h' & -> & Eh & _). done.
Qed.
Lemma quiet_L a (h : heap V) : er_h (getMutateChL a h).2 = er_h h.
Proof.
  destruct (h_leaves h !! a) as [n|] eqn:E; [|unfold getMutateChL, bind, hloadL; by rewrite E].
  destruct (getMutateChL_ok h a n E) as (c & h' & -> & Eh & _). done.
Qed.
Lemma quiet_getWatch r k (h : heap V) : er_h (getWatchFrom r k h).2 = er_h h.
Proof.
  unfold getWatchFrom, bind. cbn. unfold lift. destruct (search _ h r _ 0) as [[la|a]| |]; [| |done..].
  - unfold hloadL. destruct (h_leaves h !! la) as [l|]; [|done]. pose proof (quiet_L la h). by destruct (getMutateChL la h) as [[c| |] h'].
  - pose proof (quiet_N a h). by destruct (getMutateChN a h) as [[c| |] h'].
Qed.
Lemma quiet_seekWatch it p (h : heap V) : er_h (seekPrefixWatch it p h).2 = er_h h.
Proof.
  unfold seekPrefixWatch, bind. cbn. unfold lift. destruct (seekPrefix h it p) as [it'| |]; [|done..].
  destruct (it_node it') as [[b|b]|]; [|done..]. pose proof (quiet_N b h). by destruct (getMutateChN b h) as [[c| |] h'].
Qed.
Lemma sim_notify : sim (V:=V) id notify (ret tt).
Proof.
  unfold notify. intros s. unfold bind, getT. cbn. destruct (t_track (s_t s)); [|reflexivity].
  unfold slowNotify, bind, getT. cbn. unfold liftH. pose proof (hsim_closeAll (t_chs (s_t s)) (s_h s)) as E.
  destruct (closeAll (t_chs (s_t s)) (s_h s)) as [[[]| |] h']; cbn in *; [|done..].
  unfold er. cbn. apply (f_equal snd) in E. cbn in E. unfold ret. by rewrite E.
Qed.

Lemma onHeap_quiet {A} c w fr (m : HM A) k r w' : inv w fr -> er_h (m (w_h w)).2 = er_h (w_h w) -> (forall a, (k a).1 = ([], [])) ->
  onHeap w m k = (r, w') -> good c w w' fr.
Proof.
  intros W Eh Hk E. unfold onHeap in E. destruct (m (w_h w)) as [[a| |] h']; cbn in Eh.
  - specialize (Hk a). destruct (k a) as [[ts xs] r0]. cbn in Hk. injection Hk as -> ->. injection E as <- <-. apply good_quiet; cbn; rewrite ?app_nil_r; done.
  - injection E as <- <-. by apply good_quiet.
  - injection E as <- <-. by apply good_quiet.
Qed.

(** cloning the root of a view that does not write *)
Lemma clone_WI (h : heap V) vw k u i ow' a h' : WI h vw -> vw k = Some u -> v_own u = None -> vw i = None -> (ow' = None \/ ow' = Some (v_max u)) ->
  ecloneN (v_root u) h = (Ok a, h') ->
  WI h' (fun w => if decide (w = i) then Some (mkV a (v_max u) ow') else vw w) /\ (forall w v, vw w = Some v -> same (v_root v) h h').
Proof.
  intros W Hk Ho Hi How E. unfold ecloneN, bind, hloadN in E. destruct (h_nodes h !! v_root u) as [n|] eqn:En; [|done].
  unfold hallocN in E. injection E as <- <-.
  by eapply (WI_clone h vw k u n (set_partial n (clonePartial (n_partial n)))).
Qed.
Lemma clone_fail (a : addr) (h : heap V) o h' : ecloneN a h = (o, h') -> (forall b, o <> Ok b) -> h' = h.
Proof. unfold ecloneN, bind, hloadN. destruct (h_nodes h !! a); [intros [= <- <-] Hn; by destruct (Hn (h_next h))|by intros [= <- <-]]. Qed.

Definition safe_op {A} (m : TM A) (m0 : TM A) : Prop := sim id m m0 /\ forall D0 n0 s, ok D0 n0 s -> ow D0 n0 m0 (fun _ _ => True) s.
Lemma safe_insert k v : safe_op (txnInsert k v) (etxnInsert k v).
Proof. split; [apply sim_txnInsert|]. intros. by apply ow_txnInsert. Qed.
Lemma safe_delete k : safe_op (txnDelete k) (etxnDelete k).
Proof. split; [apply sim_txnDelete|]. intros. by apply ow_txnDelete. Qed.
Lemma safe_deletePrefix k : safe_op (txnDeletePrefix k) (etxnDeletePrefix k).
Proof. split; [apply sim_txnDeletePrefix|]. intros. by apply ow_txnDeletePrefix. Qed.

Lemma safe_WI {A} (m m0 : TM A) (h : heap V) vw i t o s' : safe_op m m0 -> WI h vw -> vw i = Some (xv t) -> m0 (mkS h t) = (o, s') ->
  WI (s_h s') (fun w => if decide (w = i) then Some (xv (s_t s')) else vw w) /\ (forall w v, w <> i -> vw w = Some v -> same (v_root v) h (s_h s')).
Proof.
  intros [_ Hs] W Hi E. pose proof (Hs _ _ _ (WI_ok _ _ _ _ W Hi)) as Ho. unfold ow in Ho. rewrite E in Ho. destruct Ho as (H1 & H2 & _).
  by eapply WI_update.
Qed.

Lemma xv_er t : xv (er_t t) = xv t.
Proof. done. Qed.
Lemma step_update {A} c w fr j x (m m0 : TM A) k r w' : inv w fr -> publishes c = None -> updates c = Some j -> fr j = false -> safe_op m m0 ->
  w_txns w !! j = Some x -> (forall a, (k a).1 = []) -> onTxn w j x m k = (r, w') -> good c w w' fr.
Proof.
  intros W Hp Hu Hfr Hs Hj Hk E. destruct (Hs) as [Hsim _]. specialize (Hsim (mkS (w_h w) x)).
  destruct (m0 (er (mkS (w_h w) x))) as [o0 s0] eqn:E0. unfold er in E0. cbn in E0.
  assert (Hv : wviews w fr (X j) = Some (xv (er_t x))). { cbn. rewrite Hj. cbn. unfold jv. by rewrite Hfr. }
  destruct (safe_WI m m0 _ _ _ _ _ _ Hs W Hv E0) as [W1 S1].
  assert (Hw' : exists s', er s' = s0 /\ w' = mkW (s_h s') (w_trees w) (<[j := s_t s']> (w_txns w))).
  { unfold onTxn in E. destruct (m (mkS (w_h w) x)) as [[a| |] s']; splitp Hsim Ho Hs'; exists s'; (split; [done|]).
    - specialize (Hk a). destruct (k a) as [ts r0]. cbn in Hk. subst ts. injection E as <- <-. by rewrite app_nil_r.
    - by injection E as <- <-.
    - by injection E as <- <-. }
  destruct Hw' as (s' & <- & ->). eapply good_update; eauto.
Qed.

Lemma fresh_tree w fr : wviews w fr (T (length (w_trees w))) = None.
Proof. cbn. by rewrite lookup_ge_None_2. Qed.
Lemma fresh_txn w fr : wviews w fr (X (length (w_txns w))) = None.
Proof. cbn. by rewrite lookup_ge_None_2. Qed.

Lemma WI_ext (h : heap V) vw vw' : WI h vw -> (forall i v, vw' i = Some v -> vw i = Some v) -> WI h vw'.
Proof. intros W E. eapply WI_sub; [exact W|]. intros i v Hi. exists v. split; [by apply E|auto]. Qed.

(** RadixTree.Insert and so on: a temporary transaction *)
Lemma step_withTxn {A} c w fr i t (m m0 : TM A) (f : rtree * A -> result V) r w' :
  inv w fr -> publishes c = None -> updates c = None -> safe_op m m0 -> w_trees w !! i = Some t ->
  onHeap w (withTxn t m) (fun p => ([p.1], [], f p)) = (r, w') -> good c w w' fr.
Proof.
  intros W Hp Hu Hs Hi E. pose proof (hsim_withTxn t m m0 (proj1 Hs) (w_h w)) as Hsim.
  set (h := er_h (w_h w)) in *. unfold ewithTxn in Hsim.
  assert (Hv : wviews w fr (T i) = Some (tv t)) by (cbn; by rewrite Hi).
  unfold enewTxn in Hsim. unfold bind in Hsim at 1. destruct (ecloneN (r_root t) h) as [[a| |] h1] eqn:Ec.
  2,3: pose proof (clone_fail _ _ _ _ Ec ltac:(done)) as ->; unfold onHeap in E; destruct (withTxn t m (w_h w)) as [[p| |] h2]; cbn in Hsim; try done;
       apply (f_equal snd) in Hsim; cbn in Hsim; injection E as <- <-; by apply good_quiet.
  unfold ret in Hsim. set (x := mkTx a (r_size t) (r_max t) (r_size t) (r_max t) false []) in *.
  destruct (clone_WI h (wviews w fr) (T i) (tv t) (X (length (w_txns w))) (Some (r_max t)) a h1 W Hv eq_refl (fresh_txn w fr) (or_intror eq_refl) Ec) as [W1 S1].
  destruct (m0 (mkS h1 x)) as [o s] eqn:Em.
  destruct (safe_WI m m0 _ _ (X (length (w_txns w))) x _ _ Hs W1 ltac:(cbv beta; by rewrite decide_True) Em) as [W2 S2].
  assert (S3 : forall y v, wviews w fr y = Some v -> same (v_root v) h (s_h s)).
  { intros y v Hy. eapply same_trans; [by eapply S1|]. assert (y <> X (length (w_txns w))). { intros ->. by rewrite fresh_txn in Hy. }
    eapply S2; [done|]. by rewrite decide_False. }
  assert (Hfail : forall h2, er_h h2 = s_h s -> good c w (mkW h2 (w_trees w) (w_txns w)) fr).
  { intros h2 Eh2. split_and!.
    - unfold inv. cbn. rewrite Eh2. eapply WI_sub; [exact W2|]. intros y v Hy. assert (Hy' : wviews w fr y = Some v).
      { revert Hy. unfold wviews, views. cbn. destruct y; [done|]. by rewrite (frozen_none _ _ Hp). }
      assert (y <> X (length (w_txns w))). { intros ->. by rewrite fresh_txn in Hy'. }
      exists v. rewrite !decide_False by done. auto.
    - intros i' t' Hi'. cbn. rewrite Eh2. split; [done|]. apply (S3 (T i') (tv t')). cbn. by rewrite Hi'.
    - intros j _ y Hj. cbn. rewrite Eh2. split; [eauto|]. apply (S3 (X j) (jv (fr j) y)). cbn. by rewrite Hj. }
  unfold onHeap in E. destruct (withTxn t m (w_h w)) as [[p| |] h2]; destruct o; splitp Hsim Hh Eh2; try done.
  - injection E as <- <-. rewrite app_nil_r. injection Hh as ->. cbn.
    apply good_addtree; [done|done| |by rewrite Eh2].
    rewrite Eh2. eapply (WI_map _ _ _ (fun y => if decide (y = T (length (w_trees w))) then X (length (w_txns w)) else y)); [exact W2|].
    intros y v Hy. destruct (decide (y = T (length (w_trees w)))) as [->|Hne].
    + injection Hy as <-. exists (xv (s_t s)). rewrite decide_True by done. split_and!; [done..|]. by intros o.
    + assert (Hyx : y <> X (length (w_txns w))). { intros ->. by rewrite fresh_txn in Hy. }
      exists v. rewrite !decide_False by done. split_and!; [done..|]. intros o Ho. split; [done|]. intros y' u' Hy' Ey.
      destruct (decide (y' = T (length (w_trees w)))) as [->|]; [by rewrite Ey in Hyx|done].
  - injection E as <- <-. by apply Hfail.
  - injection E as <- <-. by apply Hfail.
Qed.

Lemma newTree_WI (h : heap V) vw i : WI h vw -> vw i = None -> exists t h', newTree h = (Ok t, h') /\ r_max t = 1 /\
  WI h' (fun w => if decide (w = i) then Some (tv t) else vw w) /\ (forall w v, vw w = Some v -> same (v_root v) h h').
Proof.
  intros W Hi. eexists _, _. split; [reflexivity|]. split; [done|].
  set (h' := mkH _ _ _ _ _). cbn in h'. change (tv _) with (mkV (S (h_next h)) 1 None).
  apply (WI_fresh h vw h' (S (h_next h)) 1 i W Hi).
  - subst h'. cbn. lia.
  - intros x Hx. subst h'. cbn. rewrite !lookup_insert_ne by lia. done.
  - intros x Hx. subst h'. cbn in Hx |- *. rewrite !lookup_insert_ne by lia. apply W. lia.
  - assert (Hr : forall x, reach h' (S (h_next h)) x -> x = S (h_next h) \/ x = h_next h).
    { intros x Hr. induction Hr as [|y n x Hr IH E Hpt]; [by left|]. destruct IH as [->| ->]; cbn in E.
      - rewrite lookup_insert in E. injection E as <-. destruct Hpt as [Hc|Hl]; [|cbn in Hl; injection Hl as <-; by right].
        cbn in Hc. exfalso. set_solver.
      - rewrite lookup_insert_ne in E by lia. destruct (wi_fresh _ _ W (h_next h)) as [F _]; [lia|]. congruence. }
    intros x Hx. destruct (wi_fresh _ _ W (h_next h)) as [F1 F2]; [lia|]. destruct (wi_fresh _ _ W (S (h_next h))) as [G1 G2]; [lia|].
    destruct (Hr x Hx) as [->| ->]; (split; [lia|]); (split; [subst h'; cbn; lia|]); subst h'; cbn; split; intros n E.
    + rewrite lookup_insert in E. injection E as <-. cbn. lia.
    + rewrite lookup_insert_ne in E by lia. congruence.
    + rewrite lookup_insert_ne in E by lia. congruence.
    + rewrite lookup_insert in E. injection E as <-. cbn. lia.
Qed.

Theorem step_good c w fr r w' : inv w fr -> (forall j, updates c = Some j -> fr j = false) -> step c w = (r, w') -> good c w w' fr.
Proof.
  intros W Hu E. destruct c; cbn [step] in E;
    try (unfold withTree in E; destruct (w_trees w !! i) as [t|] eqn:Hi; [|injection E as <- <-; by apply good_quiet]);
    try (unfold withTx in E; destruct (w_txns w !! j) as [x|] eqn:Hj; [|injection E as <- <-; by apply good_quiet]).
  - (* New *) destruct (newTree_WI _ _ _ W (fresh_tree w fr)) as (t & h' & En & _ & W1 & S1).
    pose proof (hsim_newTree (w_h w)) as Hs. rewrite En in Hs. unfold onHeap in E. destruct (newTree (w_h w)) as [[t'| |] h1]; splitp Hs E1 E2; try done.
    injection E1 as ->. subst h'. injection E as <- <-. rewrite app_nil_r. by apply good_addtree.
  - by eapply step_withTxn; [..|exact E]; eauto using safe_insert.
  - by eapply step_withTxn; [..|exact E]; eauto using safe_delete.
  - eapply (step_withTxn _ w fr i t _ _ (fun p => RBool p.2)); [..|exact E]; eauto using safe_deletePrefix.
  - (* Clone *) pose proof (hsim_cloneTree t (w_h w)) as Hs. unfold ecloneTree in Hs. unfold bind in Hs at 1.
    assert (Hv : wviews w fr (T i) = Some (tv t)) by (cbn; by rewrite Hi).
    destruct (ecloneN (r_root t) (er_h (w_h w))) as [[a| |] h1] eqn:Ec.
    + destruct (clone_WI _ (wviews w fr) (T i) (tv t) (T (length (w_trees w))) None a h1 W Hv eq_refl (fresh_tree w fr) (or_introl eq_refl) Ec) as [W1 S1].
      unfold onHeap in E. destruct (cloneTree t (w_h w)) as [[t'| |] h2]; unfold ret in Hs; splitp Hs E1 E2; try done. injection E1 as ->. subst h1.
      injection E as <- <-. rewrite app_nil_r. by apply good_addtree.
    + pose proof (clone_fail _ _ _ _ Ec ltac:(done)) as ->. unfold onHeap in E. destruct (cloneTree t (w_h w)) as [[t'| |] h2]; splitp Hs Eo Eh; try done. injection E as <- <-. by apply good_quiet.
    + pose proof (clone_fail _ _ _ _ Ec ltac:(done)) as ->. unfold onHeap in E. destruct (cloneTree t (w_h w)) as [[t'| |] h2]; splitp Hs Eo Eh; try done. injection E as <- <-. by apply good_quiet.
  - eapply onHeap_quiet; [done| | |exact E]; [apply quiet_getWatch|done].
  - eapply onHeap_quiet; [done| | |exact E]; [apply quiet_seekWatch|done].
  - (* Txn *) pose proof (hsim_newTxn t (w_h w)) as Hs. unfold enewTxn in Hs. unfold bind in Hs at 1.
    assert (Hv : wviews w fr (T i) = Some (tv t)) by (cbn; by rewrite Hi).
    destruct (ecloneN (r_root t) (er_h (w_h w))) as [[a| |] h1] eqn:Ec.
    + destruct (clone_WI _ (wviews w fr) (T i) (tv t) (X (length (w_txns w))) (Some (r_max t)) a h1 W Hv eq_refl (fresh_txn w fr) (or_intror eq_refl) Ec) as [W1 S1].
      unfold onHeap in E. destruct (newTxn t (w_h w)) as [[t'| |] h2]; unfold ret in Hs; splitp Hs E1 E2; try done. injection E1 as ->. subst h1.
      injection E as <- <-. rewrite app_nil_r.
      assert (Hfz : forall y, wviews w (frozen (CTxn i) fr) y = wviews w fr y). { intros [?|k]; [done|]. cbn. by rewrite (frozen_none (CTxn i) fr eq_refl). }
      apply good_addtxn; [done| |].
      * eapply WI_ext; [exact W1|]. intros y v. cbn beta. rewrite Hfz. by destruct (decide _).
      * intros y v Hy. rewrite Hfz in Hy. by apply (S1 y).
    + pose proof (clone_fail _ _ _ _ Ec ltac:(done)) as ->. unfold onHeap in E. destruct (newTxn t (w_h w)) as [[t'| |] h2]; splitp Hs Eo Eh; try done. injection E as <- <-. by apply good_quiet.
    + pose proof (clone_fail _ _ _ _ Ec ltac:(done)) as ->. unfold onHeap in E. destruct (newTxn t (w_h w)) as [[t'| |] h2]; splitp Hs Eo Eh; try done. injection E as <- <-. by apply good_quiet.
  - eapply step_update; [exact W|done|reflexivity|by apply Hu|apply safe_insert|exact Hj| |exact E]. done.
  - eapply step_update; [exact W|done|reflexivity|by apply Hu|apply safe_delete|exact Hj| |exact E]. done.
  - eapply step_update; [exact W|done|reflexivity|by apply Hu|apply safe_deletePrefix|exact Hj| |exact E]. done.
  - eapply onHeap_quiet; [done| | |exact E]; [apply quiet_getWatch|done].
  - injection E as <- <-. apply good_quiet; [done..|]. cbn. rewrite list_fmap_insert. apply list_insert_id. by rewrite list_lookup_fmap, Hj.
  - (* Commit *) pose proof (sim_commit (mkS (w_h w) x)) as Hs. unfold bind, getT, ret in Hs. unfold onTxn in E.
    destruct (commit (mkS (w_h w) x)) as [[t'| |] s]; splitp Hs E1 E2; try done. pose proof (f_equal s_h E2) as E3. pose proof (f_equal s_t E2) as E4. cbn in E3, E4. injection E as <- <-.
    injection E1 as ->. change (commitOnly (er_t x)) with (commitOnly x).
    eapply good_publish; [done|reflexivity|done|done|]. rewrite list_fmap_insert. apply list_insert_id. rewrite list_lookup_fmap, Hj. cbn. by rewrite <- E4.
  - (* CommitOnly *) injection E as <- <-. by eapply good_publish.
  - (* Notify *) pose proof (sim_notify (mkS (w_h w) x)) as Hs. unfold ret in Hs. unfold onTxn in E.
    destruct (notify (mkS (w_h w) x)) as [[t'| |] s]; splitp Hs E1 E2; try done. pose proof (f_equal s_h E2) as E3. pose proof (f_equal s_t E2) as E4. cbn in E3, E4. injection E as <- <-.
    rewrite app_nil_r. apply good_quiet; [done..|]. cbn. rewrite list_fmap_insert. apply list_insert_id. rewrite list_lookup_fmap, Hj. cbn. by rewrite <- E4.
  - (* Txn.Clone *) pose proof (hsim_cloneTxn x (w_h w)) as Hs. unfold ecloneTxn in Hs. unfold bind in Hs at 1.
    destruct (good_quiet (CTClone j) w w fr W eq_refl eq_refl eq_refl) as (W0 & _).
    set (fr1 := frozen (CTClone j) fr) in *.
    assert (Hv : wviews w fr1 (X j) = Some (mkV (t_root x) (t_max x) None)). { cbn. rewrite Hj. cbn. unfold jv, fr1, frozen. cbn. by rewrite Nat.eqb_refl, orb_true_r. }
    destruct (ecloneN (t_root x) (er_h (w_h w))) as [[a| |] h1] eqn:Ec.
    + destruct (clone_WI _ (wviews w fr1) (X j) _ (X (length (w_txns w))) (Some (t_max x)) a h1 W0 Hv eq_refl (fresh_txn w fr1) (or_intror eq_refl) Ec) as [W1 S1].
      unfold onHeap in E. destruct (cloneTxn x (w_h w)) as [[t'| |] h2]; unfold ret in Hs; splitp Hs E1 E2; try done. injection E1 as ->. subst h1.
      injection E as <- <-. rewrite app_nil_r. by apply good_addtxn.
    + pose proof (clone_fail _ _ _ _ Ec ltac:(done)) as ->. unfold onHeap in E. destruct (cloneTxn x (w_h w)) as [[t'| |] h2]; splitp Hs Eo Eh; try done. injection E as <- <-. by apply good_quiet.
    + pose proof (clone_fail _ _ _ _ Ec ltac:(done)) as ->. unfold onHeap in E. destruct (cloneTxn x (w_h w)) as [[t'| |] h2]; splitp Hs Eo Eh; try done. injection E as <- <-. by apply good_quiet.
Qed.
End WorldInv.
