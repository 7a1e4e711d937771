(** Ownership: which memory cells a transaction may write.

    D0 is the set of cells the transaction can reach when a call starts, n0 the first free address at that
    time.  Every update writes only cells that belong to the transaction: cells of D0 or new cells, and
    of these only the ones whose id is above the transaction's oldMaxNodeId.  This holds for every call in every
    state, also when the call panics. *)
From Verif Require Export Erase.
From stdpp Require Export list.
Local Open Scope nat_scope.

Section Own.
Context {V : Type} `{GoZero V}.
Notation TM := (M (st V)).
Notation nd s := (h_nodes (s_h s)).
Notation lv s := (h_leaves (s_h s)).
Notation nx s := (h_next (s_h s)).
Notation om s := (t_oldmax (s_t s)).
Notation mx s := (t_max (s_t s)).

Variable D0 : addr -> Prop.
Variable n0 : addr.

Definition In (s : st V) (x : addr) : Prop := x < nx s /\ (D0 x \/ n0 <= x).
Definition oIn (s : st V) (o : option addr) : Prop := match o with Some x => In s x | None => True end.
(** the pointers of a node stay inside *)
Record pn (s : st V) (n : inode) : Prop := mk_pn {
  pn_id : n_id n <= mx s;
  pn_ch : forall o, o ∈ n_children n -> oIn s o;
  pn_leaf : oIn s (n_leaf n) }.
(** ... and the node is writable *)
Definition wn (s : st V) (n : inode) : Prop := pn s n /\ om s < n_id n.
Definition wl (s : st V) (l : lnode V) : Prop := om s < l_id l <= mx s.
Definition own (s : st V) (x : addr) : Prop := In s x /\ exists n, nd s !! x = Some n /\ om s < n_id n.
Definition ownL (s : st V) (x : addr) : Prop := In s x /\ exists l, lv s !! x = Some l /\ om s < l_id l.

Record ok (s : st V) : Prop := mk_ok {
  ok_n0 : n0 <= nx s;
  ok_fresh : forall x, nx s <= x -> nd s !! x = None /\ lv s !! x = None;
  ok_max : om s <= mx s;
  ok_root : In s (t_root (s_t s));
  ok_node : forall x n, nd s !! x = Some n -> In s x -> pn s n;
  ok_lf : forall x l, lv s !! x = Some l -> In s x -> l_id l <= mx s }.

Record ext (s s' : st V) : Prop := mk_ext {
  ext_next : nx s <= nx s';
  ext_om : om s' = om s;
  ext_mx : mx s <= mx s';
  ext_nd : forall x, x < nx s -> nd s' !! x = nd s !! x \/
     (own s x /\ exists n', nd s' !! x = Some n' /\ om s < n_id n');
  ext_lv : forall x, x < nx s -> lv s' !! x = lv s !! x \/
     (ownL s x /\ exists l', lv s' !! x = Some l' /\ om s < l_id l') }.

Lemma In_ext s s' x : ext s s' -> In s x -> In s' x.
Proof. intros E [Hx Hd]. split; [|done]. pose proof (ext_next _ _ E). lia. Qed.
Lemma oIn_ext s s' o : ext s s' -> oIn s o -> oIn s' o.
Proof. destruct o; [apply In_ext|done]. Qed.
Lemma pn_ext s s' n : ext s s' -> pn s n -> pn s' n.
Proof.
  intros E [H1 H2 H3]. split.
  - pose proof (ext_mx _ _ E). lia.
  - intros o Ho. eapply oIn_ext; eauto.
  - eapply oIn_ext; eauto.
Qed.
Lemma wn_ext s s' n : ext s s' -> wn s n -> wn s' n.
Proof. intros E [H1 H2]. split; [by eapply pn_ext|]. by rewrite (ext_om _ _ E). Qed.
Lemma wl_ext s s' l : ext s s' -> wl s l -> wl s' l.
Proof. intros E [H1 H2]. unfold wl. rewrite (ext_om _ _ E). pose proof (ext_mx _ _ E). lia. Qed.
Lemma own_ext s s' x : ext s s' -> own s x -> own s' x.
Proof.
  intros E [Hi (n & Hn & Hid)]. split; [by eapply In_ext|]. rewrite (ext_om _ _ E).
  destruct (ext_nd _ _ E x (proj1 Hi)) as [Eq|(_ & n' & Hn' & Hid')]; [exists n; by rewrite Eq|eauto].
Qed.
Lemma ownL_ext s s' x : ext s s' -> ownL s x -> ownL s' x.
Proof.
  intros E [Hi (n & Hn & Hid)]. split; [by eapply In_ext|]. rewrite (ext_om _ _ E).
  destruct (ext_lv _ _ E x (proj1 Hi)) as [Eq|(_ & n' & Hn' & Hid')]; [exists n; by rewrite Eq|eauto].
Qed.
Lemma own_In s x : own s x -> In s x.
Proof. by intros [? _]. Qed.
Lemma ownL_In s x : ownL s x -> In s x.
Proof. by intros [? _]. Qed.
Lemma ext_refl s : ext s s.
Proof. split; auto. Qed.
Lemma ext_trans s1 s2 s3 : ext s1 s2 -> ext s2 s3 -> ext s1 s3.
Proof.
  intros E1 E2. pose proof (ext_next _ _ E1). pose proof (ext_next _ _ E2). pose proof (ext_mx _ _ E1). pose proof (ext_mx _ _ E2).
  pose proof (ext_om _ _ E1) as O1. pose proof (ext_om _ _ E2) as O2. split; [lia|congruence|lia|..].
  - intros x Hx. destruct (ext_nd _ _ E1 x Hx) as [Q1|(Ho & n & Hn & Hid)].
    + destruct (ext_nd _ _ E2 x ltac:(lia)) as [Q2|(Ho & n' & Hn' & Hid')]; [left; congruence|right].
      rewrite O1 in Hid'. split; [|eauto]. destruct Ho as [[_ Hi] (n & Hn & Hid)]. split; [by split|]. exists n. rewrite <- Q1. split; [done|]. by rewrite O1 in Hid.
    + right. split; [done|]. destruct (ext_nd _ _ E2 x ltac:(lia)) as [Q2|(_ & n' & Hn' & Hid')]; [exists n; by rewrite Q2|].
      exists n'. rewrite O1 in Hid'. done.
  - intros x Hx. destruct (ext_lv _ _ E1 x Hx) as [Q1|(Ho & n & Hn & Hid)].
    + destruct (ext_lv _ _ E2 x ltac:(lia)) as [Q2|(Ho & n' & Hn' & Hid')]; [left; congruence|right].
      rewrite O1 in Hid'. split; [|eauto]. destruct Ho as [[_ Hi] (n & Hn & Hid)]. split; [by split|]. exists n. rewrite <- Q1. split; [done|]. by rewrite O1 in Hid.
    + right. split; [done|]. destruct (ext_lv _ _ E2 x ltac:(lia)) as [Q2|(_ & n' & Hn' & Hid')]; [exists n; by rewrite Q2|].
      exists n'. rewrite O1 in Hid'. done.
Qed.

(** ** Rules *)
Definition ow {A} (m : TM A) (Q : A -> st V -> Prop) (s : st V) : Prop :=
  let '(o, s') := m s in ok s' /\ ext s s' /\ match o with Ok a => Q a s' | _ => True end.

Lemma ow_mono {A} (m : TM A) (P Q : A -> st V -> Prop) s : ow m P s -> (forall a s', ok s' -> ext s s' -> P a s' -> Q a s') -> ow m Q s.
Proof. unfold ow. destruct (m s) as [[a| |] s']; intros (H1 & H2 & H3) HPQ; auto. Qed.
Lemma ow_bind {A B} (m : TM A) (k : A -> TM B) Q s : ow m (fun a s' => ok s' -> ext s s' -> ow (k a) Q s') s -> ow (bind m k) Q s.
Proof.
  unfold ow, bind. destruct (m s) as [[a| |] s']; intros (H1 & H2 & H3); auto. specialize (H3 H1 H2).
  destruct (k a s') as [o s'']. destruct H3 as (H4 & H5 & H6). split; [done|]. split; [by eapply ext_trans|done].
Qed.
Lemma ow_use {A B} (m : TM A) (k : A -> TM B) P Q s : ow m P s -> (forall a s', ok s' -> ext s s' -> P a s' -> ow (k a) Q s') -> ow (bind m k) Q s.
Proof. intros Hm Hk. apply ow_bind. eapply ow_mono; [exact Hm|]. auto. Qed.
Lemma ow_ret {A} (a : A) (Q : A -> st V -> Prop) s : ok s -> Q a s -> ow (ret a) Q s.
Proof. intros Hok HQ. split; [done|]. split; [apply ext_refl|done]. Qed.
Lemma ow_lift {A} (o : outcome A) (Q : A -> st V -> Prop) s : ok s -> (forall a, o = Ok a -> Q a s) -> ow (lift o) Q s.
Proof. intros Hok HQ. split; [done|]. split; [apply ext_refl|]. destruct o; auto. Qed.
Lemma ow_panic {A} (Q : A -> st V -> Prop) s : ok s -> ow panic Q s.
Proof. intros Hok. split; [done|]. split; [apply ext_refl|done]. Qed.
Lemma ow_nofuel {A} (Q : A -> st V -> Prop) s : ok s -> ow nofuel Q s.
Proof. intros Hok. split; [done|]. split; [apply ext_refl|done]. Qed.
Lemma ow_getT (Q : txn -> st V -> Prop) s : ok s -> Q (s_t s) s -> ow getT Q s.
Proof. intros Hok HQ. split; [done|]. split; [apply ext_refl|done]. Qed.
Lemma ow_getH (Q : heap V -> st V -> Prop) s : ok s -> Q (s_h s) s -> ow getH Q s.
Proof. intros Hok HQ. split; [done|]. split; [apply ext_refl|done]. Qed.
Lemma ow_byteAt k i (Q : nat -> st V -> Prop) s : ok s -> (forall b, Q b s) -> ow (byteAt k i) Q s.
Proof. intros Hok HQ. unfold byteAt. destruct (k !! i); [by apply ow_ret|by apply ow_panic]. Qed.
Lemma ow_loadN a (Q : inode -> st V -> Prop) s : ok s -> In s a -> (forall n, pn s n -> (own s a -> wn s n) -> Q n s) -> ow (loadN a) Q s.
Proof.
  intros Hok Hin HQ. unfold ow, loadN, liftH, hloadN. destruct (nd s !! a) as [n|] eqn:Hn; destruct s as [h t]; (split; [done|]); (split; [apply ext_refl|]); [|done].
  apply HQ; [by eapply ok_node|]. intros [_ (n' & Hn' & Hid)]. cbn in *. rewrite Hn in Hn'. injection Hn' as ->.
  split; [by eapply (ok_node _ Hok)|done].
Qed.
Lemma ow_loadL a (Q : lnode V -> st V -> Prop) s : ok s -> (forall l, (ownL s a -> wl s l) -> Q l s) -> ow (loadL a) Q s.
Proof.
  intros Hok HQ. unfold ow, loadL, liftH, hloadL. destruct (lv s !! a) as [n|] eqn:Hn; destruct s as [h t]; (split; [done|]); (split; [apply ext_refl|]); [|done].
  apply HQ. intros [Hin (n' & Hn' & Hid)]. cbn in *. rewrite Hn in Hn'. injection Hn' as ->.
  split; [done|by eapply (ok_lf _ Hok)].
Qed.
Lemma ow_putT t (Q : unit -> st V -> Prop) s : ok s -> In s (t_root t) -> t_oldmax t = om s -> mx s <= t_max t ->
  (forall s', ok s' -> ext s s' -> s_t s' = t -> Q tt s') -> ow (putT t) Q s.
Proof.
  intros Hok Hr Ho Hm HQ. set (s' := mkS (s_h s) t).
  assert (E : ext s s') by (split; cbn; auto).
  assert (Hok' : ok s').
  { destruct Hok as [H1 HF H2 H3 H4 H5]. split; cbn; [done|exact HF|lia|exact Hr|..].
    - intros x n Hn Hx. eapply pn_ext; [exact E|]. by eapply H4.
    - intros x l Hl Hx. specialize (H5 x l Hl Hx). lia. }
  unfold ow, putT. fold s'. split; [done|]. split; [done|]. by apply HQ.
Qed.
Lemma ow_nextId (Q : nat -> st V -> Prop) s : ok s -> (forall i s', ok s' -> ext s s' -> om s' < i <= mx s' -> Q i s') -> ow nextId Q s.
Proof.
  intros Hok HQ. unfold nextId. apply ow_bind, ow_getT; [done|]. intros _ _. apply ow_bind. apply ow_putT; [done|apply ok_root, Hok|done|cbn; lia|].
  intros s' Hok' E Et _ _. apply ow_ret; [done|]. apply HQ; [done|done|]. pose proof (ok_max _ Hok). rewrite Et. cbn. lia.
Qed.
Lemma store_ok s a n : ok s -> own s a -> wn s n -> ok (mkS (set_nodes (s_h s) (<[a := n]> (nd s))) (s_t s)) /\ ext s (mkS (set_nodes (s_h s) (<[a := n]> (nd s))) (s_t s)).
Proof.
  intros Hok Hown [Hpn Hid]. set (s' := mkS _ _).
  assert (E : ext s s').
  { split; cbn; auto. intros x Hx. destruct (decide (x = a)) as [->|Hne]; [right|left; by rewrite lookup_insert_ne].
    split; [done|]. exists n. by rewrite lookup_insert. }
  split; [|done]. destruct Hok as [H1 HF H2 H3 H4 H5]. split; cbn; [done| |done|by eapply In_ext| |exact H5].
  { intros x Hx. destruct Hown as [[Hlt _] _]. rewrite lookup_insert_ne by lia. by apply HF. }
  intros x n' Hn' Hx. apply lookup_insert_Some in Hn' as [[<- <-]|[_ Hn']]; [by eapply pn_ext|]. eapply pn_ext; [exact E|]. by eapply H4.
Qed.
Lemma ow_storeN a n (Q : unit -> st V -> Prop) s : ok s -> own s a -> wn s n -> (forall s', ok s' -> ext s s' -> Q tt s') -> ow (storeN a n) Q s.
Proof. intros Hok Hown Hwn HQ. destruct (store_ok s a n Hok Hown Hwn) as [H1 H2]. split; [exact H1|]. split; [exact H2|]. by apply HQ. Qed.
Lemma ow_storeL a l (Q : unit -> st V -> Prop) s : ok s -> ownL s a -> wl s l -> (forall s', ok s' -> ext s s' -> Q tt s') -> ow (storeL a l) Q s.
Proof.
  intros Hok Hown [Hid Hid2] HQ. set (s' := mkS (set_leaves (s_h s) (<[a := l]> (lv s))) (s_t s)).
  assert (E : ext s s').
  { split; cbn; auto. intros x Hx. destruct (decide (x = a)) as [->|Hne]; [right|left; by rewrite lookup_insert_ne].
    split; [done|]. exists l. by rewrite lookup_insert. }
  assert (Hok' : ok s').
  { destruct Hok as [H1 HF H2 H3 H4 H5]. split; cbn; [done| |done|by eapply In_ext| |].
    { intros x Hx. destruct Hown as [[Hlt _] _]. rewrite lookup_insert_ne by lia. by apply HF. }
    { intros x n Hn Hx. eapply pn_ext; [exact E|]. by eapply H4. }
    intros x n' Hn' Hx. apply lookup_insert_Some in Hn' as [[<- <-]|[_ Hn']]; [done|]. by eapply H5. }
  split; [exact Hok'|]. split; [exact E|]. by apply HQ.
Qed.
Lemma ow_updN a f (Q : unit -> st V -> Prop) s : ok s -> own s a -> (forall n n', wn s n -> f n = Ok n' -> wn s n') ->
  (forall s', ok s' -> ext s s' -> Q tt s') -> ow (updN a f) Q s.
Proof.
  intros Hok Hown Hf HQ. unfold updN. apply ow_bind. apply ow_loadN; [done|by apply own_In|]. intros n Hpn Hwn _ _.
  apply ow_bind. apply ow_lift; [done|]. intros n' E _ _. apply ow_storeN; [done|done|by eapply Hf, E; apply Hwn|done].
Qed.
Lemma ow_allocN n (Q : addr -> st V -> Prop) s : ok s -> pn s n ->
  (forall a s', ok s' -> ext s s' -> In s' a -> (om s' < n_id n -> own s' a) -> Q a s') -> ow (liftH (hallocN n)) Q s.
Proof.
  intros Hok Hpn HQ. unfold ow, liftH, hallocN. set (s' := mkS _ _).
  assert (E : ext s s').
  { split; cbn; auto. intros x Hx. left. rewrite lookup_insert_ne by lia. done. }
  assert (Hin : In s' (nx s)) by (split; [cbn; lia|right; apply (ok_n0 _ Hok)]).
  assert (Hok' : ok s').
  { destruct Hok as [H1 HF H2 H3 H4 H5]. split; cbn; [lia| |done|by eapply In_ext| |].
    - intros x Hx. rewrite lookup_insert_ne by lia. apply HF. lia.
    - intros x n' Hn' Hx. apply lookup_insert_Some in Hn' as [[<- <-]|[Hne Hn']]; [by eapply pn_ext|]. eapply pn_ext; [exact E|]. eapply H4; [done|].
      destruct Hx as [Hx1 Hx2]. cbn in Hx1. split; [lia|done].
    - intros x l Hl Hx. eapply H5; [done|]. destruct Hx as [Hx1 Hx2]. cbn in Hx1. split; [|done].
      destruct (decide (x = nx s)) as [->|]; [|lia]. destruct (HF (nx s)) as [_ HF2]; [lia|]. congruence. }
  split; [done|]. split; [done|]. apply HQ; [done|done|done|]. intros Hid. split; [done|]. exists n. cbn. by rewrite lookup_insert.
Qed.
Lemma ow_allocL n (Q : addr -> st V -> Prop) s : ok s -> l_id n <= mx s ->
  (forall a s', ok s' -> ext s s' -> In s' a -> (om s' < l_id n -> ownL s' a) -> Q a s') -> ow (liftH (hallocL n)) Q s.
Proof.
  intros Hok Hpn HQ. unfold ow, liftH, hallocL. set (s' := mkS _ _).
  assert (E : ext s s').
  { split; cbn; auto. intros x Hx. left. rewrite lookup_insert_ne by lia. done. }
  assert (Hin : In s' (nx s)) by (split; [cbn; lia|right; apply (ok_n0 _ Hok)]).
  assert (Hok' : ok s').
  { destruct Hok as [H1 HF H2 H3 H4 H5]. split; cbn; [lia| |done|by eapply In_ext| |].
    - intros x Hx. rewrite lookup_insert_ne by lia. apply HF. lia.
    - intros x n' Hn' Hx. eapply pn_ext; [exact E|]. eapply H4; [done|].
      destruct Hx as [Hx1 Hx2]. cbn in Hx1. split; [|done].
      destruct (decide (x = nx s)) as [->|]; [|lia]. destruct (HF (nx s)) as [HF2 _]; [lia|]. congruence.
    - intros x l Hl Hx. apply lookup_insert_Some in Hl as [[<- <-]|[Hne Hl]]; [done|]. eapply H5; [done|].
      destruct Hx as [Hx1 Hx2]. cbn in Hx1. split; [lia|done]. }
  split; [done|]. split; [done|]. apply HQ; [done|done|done|]. intros Hid. split; [done|]. exists n. cbn. by rewrite lookup_insert.
Qed.
Lemma pn_zero s k i p q : i <= mx s -> pn s (set_plen (set_partial (set_id (zero_node k) i) p) q).
Proof. intros Hi. split; cbn; [done| |done]. intros o Ho. apply elem_of_replicate in Ho as [-> _]. done. Qed.
Lemma ow_allocNode k (Q : addr -> st V -> Prop) s : ok s -> (forall a s', ok s' -> ext s s' -> own s' a -> Q a s') -> ow (allocNode k) Q s.
Proof.
  intros Hok HQ. unfold allocNode. apply ow_bind. apply ow_nextId; [done|]. intros i s1 Hok1 E1 Hi _ _.
  apply ow_allocN; [done|apply pn_zero; lia|]. intros a s2 Hok2 E2 Hin Hown. apply HQ; [done|by eapply ext_trans|]. apply Hown. cbn. rewrite (ext_om _ _ E2). lia.
Qed.
Lemma ow_allocLeaf (Q : addr -> st V -> Prop) s : ok s -> (forall a s', ok s' -> ext s s' -> ownL s' a -> Q a s') -> ow allocLeaf Q s.
Proof.
  intros Hok HQ. unfold allocLeaf. apply ow_bind. apply ow_nextId; [done|]. intros i s1 Hok1 E1 Hi _ _.
  apply ow_allocL; [done|cbn; lia|]. intros a s2 Hok2 E2 Hin Hown. apply HQ; [done|by eapply ext_trans|]. apply Hown. cbn. rewrite (ext_om _ _ E2). lia.
Qed.
Lemma wn_set_leaf s n l : wn s n -> oIn s l -> wn s (set_leaf n l).
Proof. intros [[H1 H2 H3] H4] Hl. split; [split|]; done. Qed.
Lemma ow_setNodeLeaf a l (Q : unit -> st V -> Prop) s : ok s -> own s a -> oIn s l -> (forall s', ok s' -> ext s s' -> Q tt s') -> ow (setNodeLeaf a l) Q s.
Proof.
  intros Hok Hown Hl HQ. unfold setNodeLeaf. apply ow_updN; [done|done| |done]. intros n n' Hwn [= <-]. by apply wn_set_leaf.
Qed.
Lemma ow_setKV l k v (Q : unit -> st V -> Prop) s : ok s -> ownL s l -> (forall s', ok s' -> ext s s' -> Q tt s') -> ow (setKV l k v) Q s.
Proof.
  intros Hok Hown HQ. unfold setKV. apply ow_bind. apply ow_loadL; [done|]. intros x Hx _ _. apply ow_storeL; [done|done|by apply Hx|done].
Qed.
Lemma ow_copyPartial a p (Q : unit -> st V -> Prop) s : ok s -> own s a -> (forall s', ok s' -> ext s s' -> Q tt s') -> ow (copyPartial a p) Q s.
Proof.
  intros Hok Hown HQ. unfold copyPartial. apply ow_updN; [done|done| |done]. intros n n' [[H1 H2 H3] H4] [= <-]. split; [split|]; done.
Qed.
Lemma ow_ewriteNode a (Q : addr -> st V -> Prop) s : ok s -> In s a -> (forall a' s', ok s' -> ext s s' -> own s' a' -> Q a' s') -> ow (ewriteNode a) Q s.
Proof.
  intros Hok Hin HQ. destruct (nd s !! a) as [n|] eqn:Hn.
  - destruct (Nat.ltb (om s) (n_id n)) eqn:El.
    + assert (E : ewriteNode a s = ret a s) by (unfold ewriteNode; by rewrite Hn, El). unfold ow. rewrite E. apply (ow_ret a); [done|].
      apply HQ; [done|apply ext_refl|]. split; [done|]. exists n. split; [done|]. by apply Nat.ltb_lt.
    + assert (E : ewriteNode a s = (let! i := nextId in liftH (hallocN (set_id (set_partial n (clonePartial (n_partial n))) i))) s)
        by (unfold ewriteNode; by rewrite Hn, El).
      unfold ow. rewrite E. apply ow_bind. apply ow_nextId; [done|]. intros i s1 Hok1 E1 Hi _ _.
      pose proof (pn_ext _ _ _ E1 (ok_node _ Hok a n Hn Hin)) as [P1 P2 P3].
      apply ow_allocN; [done|split; cbn; [lia|done|done]|]. intros a' s2 Hok2 E2 Hin2 Hown.
      apply HQ; [done|by eapply ext_trans|]. apply Hown. cbn. rewrite (ext_om _ _ E2). lia.
  - assert (E : ewriteNode a s = panic s) by (unfold ewriteNode; by rewrite Hn). unfold ow. rewrite E. by apply ow_panic.
Qed.
Lemma ow_ewriteLeaf a (Q : addr -> st V -> Prop) s : ok s -> In s a -> (forall a' s', ok s' -> ext s s' -> ownL s' a' -> Q a' s') -> ow (ewriteLeaf a) Q s.
Proof.
  intros Hok Hin HQ. destruct (lv s !! a) as [n|] eqn:Hn.
  - destruct (Nat.ltb (om s) (l_id n)) eqn:El.
    + assert (E : ewriteLeaf a s = ret a s) by (unfold ewriteLeaf; by rewrite Hn, El). unfold ow. rewrite E. apply (ow_ret a); [done|].
      apply HQ; [done|apply ext_refl|]. split; [done|]. exists n. split; [done|]. by apply Nat.ltb_lt.
    + assert (E : ewriteLeaf a s = (let! i := nextId in liftH (hallocL (setl_id n i))) s)
        by (unfold ewriteLeaf; by rewrite Hn, El).
      unfold ow. rewrite E. apply ow_bind. apply ow_nextId; [done|]. intros i s1 Hok1 E1 Hi _ _.
      apply ow_allocL; [done|cbn; lia|]. intros a' s2 Hok2 E2 Hin2 Hown.
      apply HQ; [done|by eapply ext_trans|]. apply Hown. cbn. rewrite (ext_om _ _ E2). lia.
  - assert (E : ewriteLeaf a s = panic s) by (unfold ewriteLeaf; by rewrite Hn). unfold ow. rewrite E. by apply ow_panic.
Qed.

(** ** Node-level routines: the id and the leaf stay, all children come from the arguments *)
Definition keeps (P : option addr -> Prop) (n n' : inode) : Prop :=
  n_id n' = n_id n /\ n_leaf n' = n_leaf n /\ (Forall P (n_children n) -> Forall P (n_children n')).
Section Pure.
Variable P : option addr -> Prop.
Hypothesis PN : P None.
Notation kp := (keeps P).
Lemma kp_refl n : kp n n.
Proof. done. Qed.
Lemma kp_trans a b c : kp a b -> kp b c -> kp a c.
Proof. intros (A1 & A2 & A3) (B1 & B2 & B3). split; [congruence|]. split; [congruence|auto]. Qed.
Lemma kp_setChildN n i c n' : setChildN n i c = Ok n' -> P c -> kp n n'.
Proof.
  unfold setChildN. destruct (Nat.ltb _ _); [|done]. intros [= <-] Hc. split; [done|]. split; [done|]. cbn. intros HF. by apply Forall_insert.
Qed.
Lemma kp_setKeyAtIdx n i k n' : setKeyAtIdx n i k = Ok n' -> kp n n'.
Proof. unfold setKeyAtIdx. destruct (n_kind n); try destruct (Nat.ltb _ _); intros [= <-]; done. Qed.
Lemma P_getChild n i c : getChild n i = Ok c -> Forall P (n_children n) -> P c.
Proof.
  intros E HF. rewrite Forall_lookup in HF. unfold getChild in E.
  destruct (n_kind n); destruct (n_children n !! i) as [x|] eqn:Ex; cbn in E; try discriminate; injection E as <-; eauto.
Qed.
Lemma P_findChild n b c i : findChild n b = Ok (c, i) -> Forall P (n_children n) -> P c.
Proof.
  intros E HF. unfold findChild in E. destruct (n_kind n).
  1,2: destruct (_ && _); [|by injection E as <- _]; destruct (getChild _ _) as [ch| |] eqn:Ec; try discriminate; injection E as <- _; by eapply P_getChild.
  - destruct (getKeyAtIdx n b) as [k| |]; try discriminate. cbn in E. destruct (Nat.eqb k 0); [by injection E as <- _|].
    destruct (getChild _ _) as [ch| |] eqn:Ec; try discriminate; injection E as <- _; by eapply P_getChild.
  - destruct (getChild _ _) as [[ch|]| |] eqn:Ec; try discriminate; injection E as <- _; [|done]. by eapply P_getChild.
Qed.
Lemma F_go_copy (dst src : list (option addr)) i : Forall P dst -> Forall P src -> Forall P (go_copy dst i src).
Proof.
  intros H1 H2. unfold go_copy. apply Forall_app; split; [by apply Forall_take|]. apply Forall_app; split; [by apply Forall_take|by apply Forall_drop].
Qed.
Lemma kp_insertSorted n c ch n' : insertSorted n c ch = Ok n' -> P (Some ch) -> kp n n'.
Proof.
  intros E Hc. unfold insertSorted in E. match type of E with context [setKeyAtIdx ?m] => assert (K0 : kp n m) end.
  { split; [done|]. split; [done|]. cbn. intros HF. apply F_go_copy; [done|]. unfold slice. by apply Forall_take, Forall_drop. }
  destruct (setKeyAtIdx _ _ _) as [m1| |] eqn:E1; try discriminate. cbn [obind] in E.
  destruct (setChildN m1 _ _) as [m2| |] eqn:E2; try discriminate. cbn [obind] in E. injection E as <-.
  eapply kp_trans; [exact K0|]. eapply kp_trans; [by eapply kp_setKeyAtIdx|]. eapply kp_trans; [by eapply kp_setChildN|]. done.
Qed.
Lemma kp_copyHeader d n d' : copyHeader d n = Ok d' -> kp d d'.
Proof. unfold copyHeader. destruct (_ && _); [|done]. intros [= <-]. done. Qed.
Lemma kp_fill48 l d n d' : fill48 d n l = Ok d' -> kp d d'.
Proof.
  revert d. induction l as [|i l IH]; cbn; intros d E; [injection E as <-; apply kp_refl|].
  destruct (getKeyAtIdx n i) as [k| |]; try discriminate. cbn in E. destruct (setKeyAtIdx d _ _) as [d1| |] eqn:E1; try discriminate. cbn in E.
  eapply kp_trans; [by eapply kp_setKeyAtIdx|]. by apply IH.
Qed.
Lemma kp_insert48 n c ch n' : insert48 n c ch = Ok n' -> P (Some ch) -> kp n n'.
Proof.
  unfold insert48. intros E Hc. destruct (free_slot _ _) as [p| |]; try discriminate. cbn in E.
  destruct (setChildN n _ _) as [m2| |] eqn:E2; try discriminate. cbn in E.
  destruct (setKeyAtIdx _ _ _) as [m1| |] eqn:E1; try discriminate. cbn in E. injection E as <-.
  eapply kp_trans; [by eapply kp_setChildN|]. eapply kp_trans; [by eapply kp_setKeyAtIdx|]. done.
Qed.
Lemma kp_insert256 n c ch n' : insert256 n c ch = Ok n' -> P (Some ch) -> kp n n'.
Proof. unfold insert256. intros E Hc. eapply kp_trans; [|by eapply kp_setChildN]. done. Qed.
Lemma kp_fill256 l d n d' : fill256 d n l = Ok d' -> Forall P (n_children n) -> kp d d'.
Proof.
  intros E HF. revert d E. induction l as [|i l IH]; cbn; intros d E; [injection E as <-; apply kp_refl|].
  destruct (getKeyAtIdx n i) as [k| |]; try discriminate. cbn in E. destruct (Nat.eqb k 0); [by apply IH|].
  destruct (getChild n _) as [c| |] eqn:Ec; try discriminate. cbn in E.
  destruct (setChildN d _ _) as [d1| |] eqn:E1; try discriminate. cbn in E.
  eapply kp_trans; [eapply kp_setChildN; [done|]; by eapply P_getChild|]. by apply IH.
Qed.
Lemma kp_fill16 l j d n d' : fill16 d n j l = Ok d' -> Forall P (n_children n) -> kp d d'.
Proof.
  intros E HF. revert d j E. induction l as [|i l IH]; cbn; intros d j E; [injection E as <-; apply kp_refl|].
  destruct (getKeyAtIdx n i) as [k| |]; try discriminate. cbn in E. destruct (Nat.eqb k 0); [by eapply IH|].
  destruct (setKeyAtIdx _ _ _) as [d0| |] eqn:E0; try discriminate. cbn in E.
  destruct (getChild n _) as [c| |] eqn:Ec; try discriminate. cbn in E.
  destruct (setChildN d0 _ _) as [d1| |] eqn:E1; try discriminate. cbn in E.
  eapply kp_trans; [by eapply kp_setKeyAtIdx|]. eapply kp_trans; [eapply kp_setChildN; [done|]; by eapply P_getChild|]. by eapply IH.
Qed.
Lemma kp_fill48from256 l j d n d' : fill48from256 d n j l = Ok d' -> Forall P (n_children n) -> kp d d'.
Proof.
  intros E HF. revert d j E. induction l as [|i l IH]; cbn; intros d j E; [injection E as <-; apply kp_refl|].
  destruct (getChild n i) as [[c|]| |] eqn:Ec; try discriminate; cbn in E; [|by eapply IH].
  destruct (setChildN d _ _) as [d1| |] eqn:E1; try discriminate. cbn in E.
  destruct (setKeyAtIdx _ _ _) as [d0| |] eqn:E0; try discriminate. cbn in E.
  eapply kp_trans; [eapply kp_setChildN; [done|]; by eapply P_getChild|]. eapply kp_trans; [by eapply kp_setKeyAtIdx|]. by eapply IH.
Qed.
Lemma F_clear cs i : Forall P cs -> Forall P (clear_from cs i).
Proof. intros HF. apply Forall_app; split; [by apply Forall_take|by apply Forall_replicate]. Qed.
Lemma F_shift cs slow pos l : Forall P cs -> Forall P (shift_loop cs slow pos l).
Proof.
  revert cs slow. induction l as [|i l IH]; intros cs slow HF; cbn; [done|]. destruct (Nat.eqb i pos); [by apply IH|]. apply IH, Forall_insert; [done|].
  destruct (cs !! i) as [x|] eqn:Ex; cbn; [|done]. by eapply Forall_lookup_1.
Qed.
Lemma kp_removeSorted n c l n' : removeSorted n c = Ok (l, n') -> kp n n'.
Proof.
  unfold removeSorted. destruct (Nat.ltb _ _); [done|]. intros [= _ <-]. split; [done|]. split; [done|]. cbn. intros HF. by apply F_clear, F_shift.
Qed.
Lemma kp_mergePrefix n c part c' : mergePrefix n c = Ok (part, c') -> kp c c'.
Proof.
  unfold mergePrefix. intros E.
  match type of E with obind ?o _ = _ => destruct o as [[p1 q1]| |] end; try discriminate. cbn [obind] in E.
  match type of E with obind ?o _ = _ => destruct o as [[p2 q2]| |] end; try discriminate. cbn [obind] in E.
  destruct (Nat.ltb _ _); [done|]. injection E as _ <-. done.
Qed.
Lemma kp_compact m n slow k l n' s' k' : compact_loop m n slow k l = Ok (n', s', k') -> Forall P m.*2 -> Forall P (n_children n) -> kp n n'.
Proof.
  intros E Hm. revert n slow k E. induction l as [|i l IH]; intros n slow k E HF; [cbn in E; injection E as <- _ _; apply kp_refl|].
  cbn in E. destruct (list_find _ m) as [[j [x [a|]]]|] eqn:Ef.
  - assert (Pa : P (Some a)). { apply list_find_Some in Ef as (Hl & _ & _). rewrite Forall_lookup in Hm. eapply Hm. rewrite list_lookup_fmap, Hl. done. }
    destruct (setChildN n _ _) as [d1| |] eqn:E1; try discriminate. cbn in E.
    assert (K : kp n d1) by by eapply kp_setChildN. eapply kp_trans; [exact K|]. eapply IH; [exact E|]. by apply K.
  - by eapply IH.
  - destruct (getChild n _) as [c| |] eqn:Ec; try discriminate. cbn in E.
    destruct (setChildN n _ _) as [d1| |] eqn:E1; try discriminate. cbn in E.
    assert (K : kp n d1) by (eapply kp_setChildN; [done|]; by eapply P_getChild). eapply kp_trans; [exact K|]. eapply IH; [exact E|]. by apply K.
Qed.
End Pure.
Lemma wn_keeps s n n' : wn s n -> keeps (oIn s) n n' -> wn s n'.
Proof.
  intros [[H1 H2 H3] H4] (K1 & K2 & K3). split; [split|]; rewrite ?K1, ?K2; [done| |done|done].
  apply Forall_forall, K3. by apply Forall_forall.
Qed.
Lemma wn_forall s n : wn s n -> Forall (oIn s) (n_children n).
Proof. intros [[_ H2 _] _]. by apply Forall_forall. Qed.
Lemma pn_forall s n : pn s n -> Forall (oIn s) (n_children n).
Proof. intros [_ H2 _]. by apply Forall_forall. Qed.
Lemma ow_updK a f (Q : unit -> st V -> Prop) s : ok s -> own s a -> (forall n n', wn s n -> f n = Ok n' -> keeps (oIn s) n n') ->
  (forall s', ok s' -> ext s s' -> Q tt s') -> ow (updN a f) Q s.
Proof. intros Hok Hown Hf HQ. apply ow_updN; [done|done| |done]. intros n n' Hwn E. eapply wn_keeps; [done|]. by eapply Hf. Qed.
Lemma ow_setChild a i c (Q : unit -> st V -> Prop) s : ok s -> own s a -> oIn s c -> (forall s', ok s' -> ext s s' -> Q tt s') -> ow (setChild a i c) Q s.
Proof. intros Hok Hown Hc HQ. apply ow_updK; [done|done| |done]. intros n n' _ E. by eapply kp_setChildN. Qed.

(** ** Tactics *)
Ltac tr1 E s s' := repeat match goal with
  | Hx : In s _ |- _ => apply (In_ext s s' _ E) in Hx
  | Hx : oIn s _ |- _ => apply (oIn_ext s s' _ E) in Hx
  | Hx : pn s _ |- _ => apply (pn_ext s s' _ E) in Hx
  | Hx : wn s _ |- _ => apply (wn_ext s s' _ E) in Hx
  | Hx : wl s _ |- _ => apply (wl_ext s s' _ E) in Hx
  | Hx : own s _ |- _ => apply (own_ext s s' _ E) in Hx
  | Hx : ownL s _ |- _ => apply (ownL_ext s s' _ E) in Hx
  | Hx : Forall (oIn s) _ |- _ => apply (fun K => Forall_impl _ (oIn s') _ K (fun o => oIn_ext s s' o E)) in Hx
  end.
Ltac tr := repeat match goal with E : ext ?s ?s' |- _ => tr1 E s s'; clear E end.
Ltac side := match goal with
  | |- ok _ => assumption
  | |- own _ _ => assumption
  | |- ownL _ _ => assumption
  | |- wn _ _ => first [assumption | match goal with Hw : own _ ?a -> wn _ ?n |- wn _ ?n => apply Hw; assumption end]
  | |- pn _ _ => first [assumption]
  | |- wl _ _ => first [assumption]
  | |- In _ _ => first [assumption | apply own_In; assumption | apply ownL_In; assumption]
  | |- oIn _ None => exact Logic.I
  | |- oIn _ (Some _) => first [assumption | apply own_In; assumption | apply ownL_In; assumption]
  | |- oIn _ (n_leaf _) => first [assumption | eapply pn_leaf; eassumption]
  end.
Ltac ostep := lazymatch goal with
  | |- ow (bind _ _) _ _ => apply ow_bind
  | |- ow (ret _) _ _ => apply ow_ret; [side|]
  | |- ow panic _ _ => apply ow_panic; side
  | |- ow nofuel _ _ => apply ow_nofuel; side
  | |- ow getT _ _ => apply ow_getT; [side|]
  | |- ow getH _ _ => apply ow_getH; [side|]
  | |- ow (byteAt _ _) _ _ => apply ow_byteAt; [side|]
  | |- ow (loadN _) _ _ => apply ow_loadN; [side|side|]
  | |- ow (loadL _) _ _ => apply ow_loadL; [side|]
  | |- ow nextId _ _ => apply ow_nextId; [side|]
  | |- ow (allocNode _) _ _ => apply ow_allocNode; [side|]
  | |- ow allocLeaf _ _ => apply ow_allocLeaf; [side|]
  | |- ow (setNodeLeaf _ _) _ _ => apply ow_setNodeLeaf; [side|side|side|]
  | |- ow (setKV _ _ _) _ _ => apply ow_setKV; [side|side|]
  | |- ow (copyPartial _ _) _ _ => apply ow_copyPartial; [side|side|]
  | |- ow (ewriteNode _) _ _ => apply ow_ewriteNode; [side|side|]
  | |- ow (ewriteLeaf _) _ _ => apply ow_ewriteLeaf; [side|side|]
  | |- ow (setChild _ _ _) _ _ => apply ow_setChild; [side|side|try side|]
  | |- ow (storeN _ _) _ _ => apply ow_storeN; [side|side|try side|]
  | |- ow (storeL _ _) _ _ => apply ow_storeL; [side|side|try side|]
  | |- ow (lift _) _ _ => apply ow_lift; [side|]
  end.
Ltac intro1 := intros; tr.

Lemma ow_post {A} (m : TM A) (P Q : A -> st V -> Prop) s : ow m P s -> (forall a s', ok s' -> ext s s' -> P a s' -> Q a s') -> ow m Q s.
Proof. apply ow_mono. Qed.
Lemma ow_makeLeaf k v s : ok s -> ow (makeLeaf k v) (fun a s' => own s' a) s.
Proof.
  intros Hok. unfold makeLeaf. ostep. ostep. intro1. ostep. ostep. intros i s1 Hok1 E1 Hi Hok1' E1'. assert (Hi' : wl s1 (mkL i v k None)) by done. clear E1'. tr. ostep. ostep. intro1.
  ostep. ostep. intro1. ostep. ostep. intro1. ostep. ostep. intro1. ostep. ostep. intros j s2 Hok2 E2 Hj Hok2' E2'. clear E2'. tr. ostep. apply ow_updN; [side|side| |].
  { intros n n' [[P1 P2 P3] P4] [= <-]. split; [split|]; cbn; try done; lia. }
  intro1. ostep. side.
Qed.
Lemma ow_emoveLeaf a o s : ok s -> own s a -> oIn s o -> ow (emoveLeaf a o) (fun _ _ => True) s.
Proof. intros Hok Hown Ho. unfold emoveLeaf. destruct o as [l|]; [|by ostep]. cbn in Ho. ostep. ostep. intro1. ostep. done. Qed.
Lemma ow_addChild256 a c ch s : ok s -> own s a -> In s ch -> ow (addChild256 a c ch) (fun a' s' => own s' a') s.
Proof.
  intros Hok Hown Hch. unfold addChild256. ostep. apply ow_updK; [side|side| |].
  { intros n n' _ E. by eapply kp_insert256. }
  intro1. ostep. done.
Qed.
Lemma ow_eaddChild48 a c ch s : ok s -> own s a -> In s ch -> ow (eaddChild48 a c ch) (fun a' s' => own s' a') s.
Proof.
  intros Hok Hown Hch. unfold eaddChild48. ostep. ostep. intro1. destruct (Nat.ltb _ _).
  - ostep. apply ow_updK; [side|side| |]. { intros m n' _ E. by eapply kp_insert48. } intro1. ostep. done.
  - ostep. ostep. intro1. ostep. eapply ow_mono; [eapply ow_emoveLeaf; side|]. intro1. ostep. apply ow_updK; [side|side| |].
    { intros m n' _ E. eapply kp_fill256; [exact Logic.I|exact E|by apply pn_forall]. }
    intro1. ostep. apply ow_updK; [side|side| |]. { intros m n' _ E. by eapply kp_copyHeader. }
    intro1. by apply ow_addChild256.
Qed.
Lemma kp_children P (d : inode) cs : (Forall P (n_children d) -> Forall P cs) -> keeps P d (set_children d cs).
Proof. done. Qed.
Lemma ow_eaddChild16 a c ch s : ok s -> own s a -> In s ch -> ow (eaddChild16 a c ch) (fun a' s' => own s' a') s.
Proof.
  intros Hok Hown Hch. unfold eaddChild16. ostep. ostep. intro1. destruct (Nat.ltb _ _).
  - ostep. apply ow_updK; [side|side| |]. { intros m n' _ E. by eapply kp_insertSorted. } intro1. ostep. done.
  - ostep. ostep. intro1. ostep. eapply ow_mono; [eapply ow_emoveLeaf; side|]. intro1. ostep. apply ow_updK; [side|side| |].
    { intros m n' _ [= <-]. apply kp_children. intros HF. apply F_go_copy; [done|]. apply Forall_take. by apply pn_forall. }
    intro1. ostep. apply ow_updK; [side|side| |]. { intros m n' _ E. by eapply kp_fill48. }
    intro1. ostep. apply ow_updK; [side|side| |]. { intros m n' _ E. by eapply kp_copyHeader. }
    intro1. by apply ow_eaddChild48.
Qed.
Lemma ow_eaddChild4 a c ch s : ok s -> own s a -> In s ch -> ow (eaddChild4 a c ch) (fun a' s' => own s' a') s.
Proof.
  intros Hok Hown Hch. unfold eaddChild4. ostep. ostep. intro1. destruct (Nat.ltb _ _).
  - ostep. apply ow_updK; [side|side| |]. { intros m n' _ E. by eapply kp_insertSorted. } intro1. ostep. done.
  - ostep. ostep. intro1. ostep. eapply ow_mono; [eapply ow_emoveLeaf; side|]. intro1. ostep. apply ow_updK; [side|side| |].
    { intros m n' _ [= <-]. apply kp_children. intros HF. apply F_go_copy; [done|]. apply Forall_take. by apply pn_forall. }
    intro1. ostep. apply ow_updK; [side|side| |]. { intros m n' _ [= <-]. done. }
    intro1. ostep. apply ow_updK; [side|side| |]. { intros m n' _ E. by eapply kp_copyHeader. }
    intro1. by apply ow_eaddChild16.
Qed.
Lemma ow_eaddChild a c ch s : ok s -> own s a -> In s ch -> ow (eaddChild a c ch) (fun a' s' => own s' a') s.
Proof.
  intros Hok Hown Hch. unfold eaddChild. ostep. ostep. intro1.
  destruct (n_kind n); [by apply ow_eaddChild4|by apply ow_eaddChild16|by apply ow_eaddChild48|by apply ow_addChild256].
Qed.

Lemma ow_eremoveChild4 a c s : ok s -> own s a -> ow (eremoveChild4 a c) (fun a' s' => own s' a') s.
Proof.
  intros Hok Hown. unfold eremoveChild4. ostep. ostep. intro1. ostep. ostep. intros [stale n1] E1. intro1. ostep. ostep. intro1. ostep. ostep.
  { match goal with K : own s a -> wn s n |- _ => pose proof (K Hown) as W end.
    eapply wn_keeps; [eapply (wn_keeps s n n1 W); by eapply kp_removeSorted|done]. }
  intro1. ostep. ostep. intro1. destruct (_ && _); [|ostep; done]. ostep. ostep. intros [ch|] Ec; intro1; [|ostep].
  assert (Hch : oIn s' (Some ch)). { eapply P_getChild; [exact Logic.I|exact Ec|]. by apply pn_forall. } cbn in Hch.
  ostep. ostep. intro1. ostep. ostep. intro1. ostep. ostep. intro1. ostep. ostep. intros [part c'] Em; intro1. ostep. ostep.
  { match goal with K : own ?s a -> wn ?s ?m |- wn ?s (set_partial ?m _) => pose proof (K ltac:(assumption)) as W; eapply wn_keeps; [exact W|done] end. }
  match goal with K : own ?s a' -> wn ?s ?m |- _ => pose proof (K ltac:(assumption)) as W2; clear K end.
  intro1. ostep. ostep.
  { eapply wn_keeps; [exact W2|]. by eapply kp_mergePrefix. }
  intro1. ostep. done.
Qed.
Lemma ow_eremoveChild16 a c s : ok s -> own s a -> ow (eremoveChild16 a c) (fun a' s' => own s' a') s.
Proof.
  intros Hok Hown. unfold eremoveChild16. ostep. ostep. intro1. ostep. ostep. intros [stale n1] E1. intro1. ostep. ostep. intro1. ostep. ostep.
  { match goal with K : own s a -> wn s n |- _ => pose proof (K Hown) as W end.
    eapply wn_keeps; [eapply (wn_keeps s n n1 W); by eapply kp_removeSorted|done]. }
  intro1. ostep. ostep. intro1. destruct (Nat.eqb _ _); [|ostep; done].
  ostep. ostep. intro1. ostep. apply ow_updK; [side|side| |]. { intros m n' _ E. by eapply kp_copyHeader. }
  intro1. ostep. apply ow_updK; [side|side| |]. { intros m n' _ [= <-]. done. }
  intro1. ostep. apply ow_updK; [side|side| |]. { intros m n' _ [= <-]. apply kp_children. intros HF. apply F_go_copy; [done|]. apply Forall_take. by apply pn_forall. }
  intro1. ostep. eapply ow_mono; [eapply ow_emoveLeaf; side|]. intro1. ostep. ostep. intro1. ostep. done.
Qed.
Lemma ow_eremoveChild48 a c s : ok s -> own s a -> ow (eremoveChild48 a c) (fun a' s' => own s' a') s.
Proof.
  intros Hok Hown. unfold eremoveChild48. ostep. ostep. intro1. ostep. ostep. intro1. ostep. apply ow_updK; [side|side| |].
  { intros m n' _ E. by eapply kp_setKeyAtIdx. }
  intro1. ostep. ostep. intro1. ostep. apply ow_updK; [side|side| |]. { intros m n' _ E. eapply kp_setChildN; [exact E|exact Logic.I]. }
  intro1. ostep. apply ow_updK; [side|side| |]. { intros m n' _ [= <-]. done. }
  intro1. ostep. ostep. intro1. destruct (Nat.eqb _ _); [|ostep; done].
  ostep. ostep. intro1. ostep. apply ow_updK; [side|side| |]. { intros m n' _ E. by eapply kp_copyHeader. }
  intro1. ostep. eapply ow_mono; [eapply ow_emoveLeaf; side|]. intro1. ostep. apply ow_updK; [side|side| |].
  { intros m n' _ E. eapply kp_fill16; [exact Logic.I|exact E|by apply pn_forall]. }
  intro1. ostep. done.
Qed.
Lemma ow_eremoveChild256 a c s : ok s -> own s a -> ow (eremoveChild256 a c) (fun a' s' => own s' a') s.
Proof.
  intros Hok Hown. unfold eremoveChild256. ostep. apply ow_updK; [side|side| |]. { intros m n' _ E. eapply kp_setChildN; [exact E|exact Logic.I]. }
  intro1. ostep. apply ow_updK; [side|side| |]. { intros m n' _ [= <-]. done. }
  intro1. ostep. ostep. intro1. destruct (Nat.eqb _ _); [|ostep; done].
  ostep. ostep. intro1. ostep. apply ow_updK; [side|side| |]. { intros m n' _ E. by eapply kp_copyHeader. }
  intro1. ostep. eapply ow_mono; [eapply ow_emoveLeaf; side|]. intro1. ostep. apply ow_updK; [side|side| |].
  { intros m n' _ E. eapply kp_fill48from256; [exact Logic.I|exact E|by apply pn_forall]. }
  intro1. ostep. done.
Qed.
Lemma ow_eremoveChild a c s : ok s -> own s a -> ow (eremoveChild a c) (fun a' s' => own s' a') s.
Proof.
  intros Hok Hown. unfold eremoveChild. ostep. ostep. intro1.
  destruct (n_kind n); [by apply ow_eremoveChild4|by apply ow_eremoveChild16|by apply ow_eremoveChild48|by apply ow_eremoveChild256].
Qed.

Lemma In_leaf s n l : n_leaf n = Some l -> pn s n -> In s l.
Proof. intros E [_ _ Hl]. by rewrite E in Hl. Qed.
Lemma In_find s n c x i : findChild n c = Ok (Some x, i) -> pn s n -> In s x.
Proof. intros E Hp. apply (P_findChild (oIn s) Logic.I _ _ _ _ E). by apply pn_forall. Qed.
Ltac side2 := first [side | solve [eapply In_leaf; eassumption] | solve [eapply In_find; eassumption]].
Ltac ostep2 := lazymatch goal with
  | |- ow (if ?b then _ else _) _ _ => destruct b
  | |- ow (match ?x with _ => _ end) _ _ => destruct x eqn:?
  | |- ow (updN _ _) _ _ => apply ow_updK; [side|side|intros ? ? _ [= <-]; done|]
  | |- ow (makeLeaf _ _) _ _ => eapply ow_mono; [apply ow_makeLeaf; side|]; cbn beta
  | |- ow (eaddChild _ _ _) _ _ => eapply ow_mono; [apply ow_eaddChild; side2|]; cbn beta
  | |- ow (eremoveChild _ _) _ _ => eapply ow_mono; [apply ow_eremoveChild; side2|]; cbn beta
  | |- ow (ewriteLeaf _) _ _ => apply ow_ewriteLeaf; [side|side2|]
  | |- ow (setNodeLeaf _ _) _ _ => apply ow_setNodeLeaf; [side|side|side2|]
  | |- ow (storeL _ _) _ _ => apply ow_storeL; [side|side|match goal with Hw : ownL _ ?a -> wl _ ?n |- wl _ _ => apply Hw; assumption end|]
  | |- ow (setChild _ _ _) _ _ => apply ow_setChild; [side|side|side2|]
  | |- ow _ _ _ => ostep
  end.
Ltac ogo := repeat first [progress intro1 | progress (cbv beta iota) | ostep2].

Definition post4 (r : addr * V * bool * bool) (s : st V) : Prop := In s r.1.1.1.
Lemma ow_insert fuel : forall a key v depth s, ok s -> In s a ->
  ow (erecursiveInsert fuel a key v depth) post4 s /\ ow (einsertInner fuel a key v depth) post4 s.
Proof.
  induction fuel as [|f IH]; intros a key v depth s Hok Hin; [split; by apply ow_nofuel|].
  assert (IH1 : forall a key v depth s, ok s -> In s a -> ow (erecursiveInsert f a key v depth) post4 s) by (intros; by apply IH).
  assert (IH2 : forall a key v depth s, ok s -> In s a -> ow (einsertInner f a key v depth) post4 s) by (intros; by apply IH).
  clear IH. split; cbn [erecursiveInsert einsertInner].
  - ogo. all: try (by apply IH2). all: try (by apply own_In).
  - ogo.
    all: try (by apply own_In). all: try exact Hin.
    all: eapply ow_mono; [apply IH1; side2|]; unfold post4; intros [[[newc val] mut] old] s2 Hok2 E2 Hin2; cbn [fst snd] in *; intro1.
    all: ogo. all: try (by apply own_In). all: done.
Qed.
Lemma ow_delete fuel : forall o key depth s, ok s -> oIn s o ->
  ow (erecursiveDelete fuel o key depth) (fun r s' => oIn s' r.1.1) s.
Proof.
  induction fuel as [|f IH]; intros o key depth s Hok Hin; [by apply ow_nofuel|].
  cbn [erecursiveDelete]. ogo. all: try (cbn [fst snd]; side).
  all: eapply ow_mono; [apply IH; [side|]; cbn [oIn]; side2|]; intros [[newc val] mut] s2 Hok2 E2 Hin2; cbn [fst snd] in *; intro1.
  all: destruct newc as [newc|]; cbn [oIn] in *.
  all: ogo. all: cbn [fst snd]; side.
Qed.
Lemma ow_installEmptyRoot s : ok s -> ow installEmptyRoot (fun _ _ => True) s.
Proof.
  intros Hok. unfold installEmptyRoot, ow, bind, getT, liftH, hallocL, hallocN, putT. cbn.
  set (s' := mkS _ _).
  assert (E : ext s s').
  { split; cbn; [lia|done|lia|..]; intros x Hx; left; rewrite lookup_insert_ne by lia; done. }
  split; [|done]. destruct Hok as [H1 HF H2 H3 H4 H5].
  split; cbn; [lia| |lia|split; [cbn; lia|right; lia]| |].
  - intros x Hx. rewrite !lookup_insert_ne by lia. apply HF. lia.
  - intros x n' Hn' Hx. apply lookup_insert_Some in Hn' as [[<- <-]|[Hne Hn']].
    + split; cbn; [lia| |]. { intros o Ho. apply elem_of_replicate in Ho as [-> _]. done. } split; [cbn; lia|right; lia].
    + eapply pn_ext; [exact E|]. eapply H4; [done|]. destruct Hx as [Hx1 Hx2]. split; [|done].
      destruct (decide (nx s <= x)) as [Hge|]; [|lia]. destruct (HF x Hge) as [HF2 _]. congruence.
  - intros x l Hl Hx. apply lookup_insert_Some in Hl as [[<- <-]|[Hne Hl]]; [cbn; lia|].
    assert (l_id l <= mx s); [|lia]. eapply H5; [done|]. destruct Hx as [Hx1 Hx2]. split; [|done].
    destruct (decide (nx s <= x)) as [Hge|]; [|lia]. destruct (HF x Hge) as [_ HF2]. congruence.
Qed.

Lemma ow_txnInsert key v s : ok s -> ow (etxnInsert key v) (fun _ _ => True) s.
Proof.
  intros Hok. unfold etxnInsert. ostep. ostep. intro1. ostep. eapply ow_mono; [apply ow_insert; [side|by apply ok_root]|].
  unfold post4. intros [[[newc val] mut] old] s2 Hok2 E2 Hin2; cbn [fst snd] in *; intro1. ostep. ostep. intro1. ostep.
  apply ow_putT; [side|cbn; destruct old; exact Hin2|by destruct old|by destruct old|]. intro1. by ostep.
Qed.
Lemma ow_txnDelete key s : ok s -> ow (etxnDelete key) (fun _ _ => True) s.
Proof.
  intros Hok. unfold etxnDelete. ostep. ostep. intro1. ostep. eapply ow_mono; [apply ow_delete; [side|by apply ok_root]|].
  intros [[newc val] mut] s2 Hok2 E2 Hin2; cbn [fst snd] in *; intro1. ostep.
  eapply (ow_mono _ (fun _ _ => True)).
  { destruct newc as [r|]; [|by apply ow_installEmptyRoot]. ostep. ostep. intro1. by apply ow_putT. }
  intro1. destruct val as [x|]; [|by ostep]. ostep. ostep. intro1. ostep. ostep. intro1. ostep. apply ow_putT; [side|by apply ok_root|done|done|].
  intro1. destruct x; ogo; done.
Qed.
Lemma ow_deletePrefix fuel : forall o key depth s, ok s -> oIn s o ->
  ow (edeletePrefix fuel o key depth) (fun r s' => oIn s' r.1) s.
Proof.
  induction fuel as [|f IH]; intros o key depth s Hok Hin; [by apply ow_nofuel|].
  cbn [edeletePrefix]. destruct o as [a|]; [|ogo; done]. cbn [oIn] in Hin. ostep. ostep. intros nd0 Hp _ _ _. ostep2; [ogo; done|].
  ostep. eapply (ow_mono _ (fun _ _ => True)). { ogo; done. } intros dp s1 Hok1 E1 _ _ _. tr. ostep.
  eapply (ow_mono _ (fun _ _ => True)). { ogo; done. } intros num s2 Hok2 E2 _ _ _. tr. ostep.
  eapply (ow_mono _ (fun r s' => Forall (oIn s') r.1.*2)).
  { match goal with |- ow (?L _ _ _ _) _ _ => cut (forall cs t idx m num, ok t -> Forall (oIn t) cs -> Forall (oIn t) m.*2 ->
      ow (L cs idx m num) (fun r s' => Forall (oIn s') r.1.*2) t) end.
    { intros HL. apply HL; [done|by apply pn_forall|constructor]. }
    clear - IH. induction cs as [|[ch|] cs IHc]; intros t idx m num Hok Hcs Hm.
    - ogo. done.
    - apply Forall_cons in Hcs as [Hc Hcs]. cbn [oIn] in Hc. ostep. eapply ow_mono; [apply IH; side|]. intros [newc d] t' Hok' E Hn. cbn [fst snd] in *. intro1.
      apply IHc; [done|done|]. rewrite fmap_app. apply Forall_app. split; [done|]. by repeat constructor.
    - apply Forall_cons in Hcs as [Hc Hcs]. by apply IHc. }
  intros [m numDel] t Hok3 E3 Hm. cbn [fst snd] in *. intro1. ostep. ostep. intro1. ostep. ostep. intro1. ostep. ostep. intros [[n' slow] numCh] Ec. intro1. ostep. ostep.
  { match goal with K : own ?u ?x -> wn ?u ?y |- wn ?u _ => pose proof (K ltac:(assumption)) as W end.
    assert (W' : wn s' n'). { eapply wn_keeps; [exact W|]. eapply kp_compact; [exact Logic.I|exact Ec|done|by apply wn_forall]. }
    eapply wn_keeps; [exact W'|]. split; [done|]. split; [done|]. cbn. intros HF. by apply F_clear. }
  intro1. ostep. cbn. side.
Qed.
Lemma ow_txnDeletePrefix key s : ok s -> ow (etxnDeletePrefix key) (fun _ _ => True) s.
Proof.
  intros Hok. unfold etxnDeletePrefix. ostep. ostep. intro1. ostep. ostep. intro1. ostep. eapply ow_mono; [apply ow_deletePrefix; [side|by apply ok_root]|].
  intros [newc num] s2 Hok2 E2 Hin2; cbn [fst snd] in *; intro1. ostep.
  eapply (ow_mono _ (fun _ _ => True)).
  { destruct newc as [r|]; [|by apply ow_installEmptyRoot]. ostep. ostep. intro1. by apply ow_putT. }
  intro1. destruct (Nat.eqb _ _); [by ostep|]. ostep. ostep. intro1. ostep. ostep. intro1. ostep. apply ow_putT; [side|by apply ok_root|done|done|].
  intro1. by ostep.
Qed.
End Own.
