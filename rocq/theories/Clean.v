(** Inserts leave no pointers behind the first numChildren slots of Node4, Node16 and Node48. *)
From Verif Require Export KeepN.
From stdpp Require Import list.
Local Open Scope nat_scope.

Definition sk (n : inode) : bool := match n_kind n with K256 => false | _ => true end.
(** Occupied slots of a Node4, Node16 or Node48 are among the first numChildren. *)
Definition cl (n : inode) : Prop :=
  sk n = true -> n_nch n <= 48 /\ forall i c, n_children n !! i = Some (Some c) -> i < n_nch n.
(** A change of a node that keeps its kind and forgets no child. *)
Definition grows (n n' : inode) : Prop := n_kind n' = n_kind n /\ (sk n = true -> n_nch n <= n_nch n').
Lemma grows_refl n : grows n n.
Proof. by split. Qed.
Lemma grows_trans n1 n2 n3 : grows n1 n2 -> grows n2 n3 -> grows n1 n3.
Proof.
  intros [E1 H1] [E2 H2]. split; [congruence|]. intros Hk. specialize (H1 Hk). unfold sk in *. rewrite E1 in H2. specialize (H2 Hk). lia.
Qed.
Lemma grows_same n n' : n_kind n' = n_kind n -> n_nch n' = n_nch n -> grows n n'.
Proof. intros E1 E2. split; [done|]. by rewrite E2. Qed.
Lemma cl_same n n' : n_kind n' = n_kind n -> n_nch n' = n_nch n -> n_children n' = n_children n -> cl n -> cl n'.
Proof. unfold cl, sk. by intros -> -> ->. Qed.

Lemma search_loop_le fuel : forall i j f, i <= j -> search_loop fuel i j f <= j.
Proof.
  induction fuel as [|fuel IH]; intros i j f Hi; cbn [search_loop]; [done|]. destruct (Nat.ltb_spec i j); [|lia]. cbv zeta.
  assert (i <= (i + j) / 2 /\ (i + j) / 2 < j).
  { split; [apply Nat.div_le_lower_bound; lia|apply Nat.div_lt_upper_bound; lia]. }
  destruct (f _); [etransitivity; [apply IH; lia|lia]|apply IH; lia].
Qed.
Lemma sort_Search_le n f : sort_Search n f <= n.
Proof. apply search_loop_le. lia. Qed.

(** slots written by a copy *)
Lemma go_copy_lookup {A} (dst : list A) lo src i : lo + length src <= i -> go_copy dst lo src !! i = dst !! i.
Proof.
  intros Hi. unfold go_copy. set (k := length src `min` (length dst - lo)).
  destruct (decide (length dst <= lo)) as [Hle|Hgt].
  - assert (k = 0) as -> by lia. rewrite (take_ge dst) by lia. cbn. rewrite Nat.add_0_r, (drop_ge dst) by lia. by rewrite app_nil_r.
  - rewrite lookup_app_r by (rewrite take_length; lia). rewrite take_length, Nat.min_l by lia.
    rewrite lookup_app_r by (rewrite take_length; lia). rewrite take_length. rewrite lookup_drop. f_equal. lia.
Qed.

Definition gcl (f : inode -> outcome inode) : Prop := forall n n', cl n -> f n = Ok n' -> cl n' /\ grows n n'.

Lemma gcl_same (f : inode -> inode) :
  (forall n, n_kind (f n) = n_kind n /\ n_nch (f n) = n_nch n /\ n_children (f n) = n_children n) -> gcl (fun n => Ok (f n)).
Proof. intros Hf n n' Hc [= <-]. destruct (Hf n) as (? & ? & ?). split; [by eapply cl_same|by apply grows_same]. Qed.
Lemma insertSorted_cl n c ch n' : sk n = true -> n_nch n < 16 -> cl n -> insertSorted n c ch = Ok n' -> cl n' /\ grows n n'.
Proof.
  intros Hk Hlt Hc. unfold insertSorted. cbv zeta. set (idx := sort_Search _ _). assert (Hidx : idx <= n_nch n) by apply sort_Search_le. clearbody idx.
  intros (n1 & E1 & E)%obind_Ok. apply obind_Ok in E as (n2 & E2 & E). injection E as <-.
  assert (H1 : n_kind n1 = n_kind n /\ n_nch n1 = n_nch n /\ n_children n1 = go_copy (n_children n) (idx + 1) (slice (n_children n) idx (idx + (n_nch n - idx)))).
  { unfold setKeyAtIdx in E1. cbn in E1. destruct (n_kind n) eqn:Ek; try (destruct (Nat.ltb _ _); [|done]); injection E1 as <-; cbn; rewrite ?Ek; done. }
  destruct H1 as (Hk1 & Hn1 & Hc1). unfold setChildN in E2. destruct (Nat.ltb _ _); [|done]. injection E2 as <-.
  cbn [n_nch n_kind n_children set_nch set_children]. rewrite Hn1. rewrite u8_incr_small by lia.
  split; [|split; [done|cbn; lia]].
  intros _. cbn [n_nch n_kind n_children set_nch set_children]. split; [lia|].
  destruct (Hc Hk) as [_ Hold]. intros i x Hi. destruct (decide (i = idx)) as [->|Hne]; [lia|].
  rewrite list_lookup_insert_ne in Hi by done. rewrite Hc1 in Hi. destruct (decide (i < n_nch n + 1)) as [|Hge]; [done|]. exfalso.
  rewrite go_copy_lookup in Hi.
  - apply Hold in Hi. lia.
  - unfold slice. rewrite take_length, drop_length. lia.
Qed.
Lemma setChildN_cl i ch n n' : cl n -> (sk n = true -> i < n_nch n) -> setChildN n i ch = Ok n' -> cl n' /\ grows n n'.
Proof.
  intros Hc Hi. unfold setChildN. destruct (Nat.ltb _ _); [|done]. intros [= <-]. split; [|by apply grows_same].
  intros Hk. destruct (Hc Hk) as [? Hold]. cbn. split; [done|]. intros j x Hj. destruct (decide (j = i)) as [->|]; [by apply Hi|].
  rewrite list_lookup_insert_ne in Hj by done. eauto.
Qed.
Lemma findChild_idx n c x i : cl n -> findChild n c = Ok (Some x, i) -> sk n = true -> i < n_nch n.
Proof.
  intros Hc E Hk. enough (n_children n !! i = Some (Some x)) as El by (by apply (proj2 (Hc Hk)) in El). clear Hc. unfold findChild in E. unfold sk in Hk. destruct (n_kind n) eqn:Ek; try done.
  1,2: (destruct (_ && _); [|done]); apply obind_Ok in E as (ch & E & E2); injection E2 as -> <-; unfold getChild in E; rewrite Ek in E; (destruct (_ !! _) eqn:El; [|done]); by injection E as ->.
  repeat (first [apply obind_Ok in E as (? & ? & E)|case_match]; try done); simplify_eq; unfold getChild in *; rewrite ?Ek in *; repeat case_match; simplify_eq; done.
Qed.
Lemma unsorted_cl n n' : n_kind n' = n_kind n -> sk n = false -> cl n' /\ grows n n'.
Proof.
  intros E Hk. assert (sk n' = false) by (unfold sk in *; by rewrite E). split; [|split; [done|]]; [intros Hk'|rewrite Hk; done]. congruence.
Qed.
(** kinds are kept *)
Definition kk (f : inode -> outcome inode) : Prop := forall n n', f n = Ok n' -> n_kind n' = n_kind n.
Lemma kk_setChildN i c : kk (fun n => setChildN n i c).
Proof. intros n n'. unfold setChildN. destruct (Nat.ltb _ _); [|done]. by intros [= <-]. Qed.
Lemma kk_setKeyAtIdx i k : kk (fun n => setKeyAtIdx n i k).
Proof. intros n n'. unfold setKeyAtIdx. destruct (n_kind n) eqn:E; try (destruct (Nat.ltb _ _); [|done]); intros [= <-]; cbn; congruence. Qed.
Lemma kk_insert48 c ch : kk (fun n => insert48 n c ch).
Proof.
  intros n n'. unfold insert48. intros (pos & _ & E)%obind_Ok. apply obind_Ok in E as (n1 & E1 & E). apply obind_Ok in E as (n2 & E2 & E).
  injection E as <-. apply kk_setChildN in E1. apply kk_setKeyAtIdx in E2. cbn in *. congruence.
Qed.
Lemma free_slot_spec cs : forall pos x, free_slot cs pos = Ok x -> pos <= x /\ cs !! (x - pos) = Some None /\ forall i, i < x - pos -> exists a, cs !! i = Some (Some a).
Proof.
  induction cs as [|[a|] cs IH]; intros pos x; cbn [free_slot]; [done| |].
  - intros E. destruct (IH _ _ E) as (A & B & C). split; [lia|]. replace (x - pos) with (S (x - (pos + 1))) by lia. split; [done|]. intros [|i] Hi; [by exists a|]. apply C. lia.
  - intros [= ->]. rewrite Nat.sub_diag. split; [done|]. split; [done|]. lia.
Qed.
Lemma insert48_cl n c ch n' : n_kind n = K48 -> n_nch n < 48 -> cl n -> insert48 n c ch = Ok n' -> cl n' /\ grows n n'.
Proof.
  intros Ek Hlt Hc. assert (Hk : sk n = true) by (unfold sk; by rewrite Ek). destruct (Hc Hk) as [_ Hold]. unfold insert48. intros (pos & Ep & E)%obind_Ok. apply obind_Ok in E as (n1 & E1 & E). apply obind_Ok in E as (n2 & E2 & E).
  injection E as <-. destruct (free_slot_spec _ _ _ Ep) as (_ & Hp & Hb). rewrite Nat.sub_0_r in Hp, Hb.
  assert (Hpos : pos <= n_nch n). { destruct (decide (pos <= n_nch n)) as [|Hgt]; [done|]. destruct (Hb (n_nch n)) as [a Ha]; [lia|]. apply Hold in Ha. lia. }
  unfold setChildN in E1. destruct (Nat.ltb _ _); [|done]. injection E1 as <-.
  assert (H2 : n_kind n2 = K48 /\ n_nch n2 = n_nch n /\ n_children n2 = <[pos := Some ch]> (n_children n)).
  { unfold setKeyAtIdx in E2. cbn in E2. rewrite Ek in E2. try (destruct (Nat.ltb _ _); [|done]). injection E2 as <-. by cbn. }
  destruct H2 as (K2 & N2 & C2). split.
  - intros _. cbn [n_nch n_children set_nch]. rewrite N2, C2, u8_incr_small by lia. split; [lia|]. intros i x Hi. destruct (decide (i = pos)) as [->|Hne]; [lia|].
    rewrite list_lookup_insert_ne in Hi by done. apply Hold in Hi. lia.
  - split; [cbn; congruence|]. intros _. cbn. rewrite N2, u8_incr_small by lia. lia.
Qed.
Lemma fill48_same n0 l : forall d d', n_kind d = K48 -> fill48 d n0 l = Ok d' -> n_kind d' = K48 /\ n_nch d' = n_nch d /\ n_children d' = n_children d.
Proof.
  induction l as [|i l IH]; intros d d' Ek; cbn; [by intros [= <-]|]. intros (k & _ & E)%obind_Ok. apply obind_Ok in E as (d1 & E1 & E).
  assert (n_kind d1 = K48 /\ n_nch d1 = n_nch d /\ n_children d1 = n_children d) as (A & B & C). { unfold setKeyAtIdx in E1. rewrite Ek in E1. try (destruct (Nat.ltb _ _); [|done]). injection E1 as <-. by cbn. }
  destruct (IH _ _ A E) as (A' & B' & C'). split_and!; congruence.
Qed.
Lemma kk_insert256 c ch : kk (fun n => insert256 n c ch).
Proof. intros n n'. unfold insert256. cbv zeta. intros E. by apply kk_setChildN in E. Qed.
Lemma kk_copyHeader n0 : kk (fun d => copyHeader d n0).
Proof. intros n n'. unfold copyHeader. destruct (_ && _); [|done]. by intros [= <-]. Qed.
Lemma kk_fill48 n0 l : kk (fun d => fill48 d n0 l).
Proof.
  induction l as [|i l IH]; intros d d'; cbn; [by intros [= <-]|]. intros (k & _ & E)%obind_Ok. apply obind_Ok in E as (d1 & E1 & E).
  apply IH in E. apply kk_setKeyAtIdx in E1. congruence.
Qed.
Lemma kk_fill256 n0 l : kk (fun d => fill256 d n0 l).
Proof.
  induction l as [|i l IH]; intros d d'; cbn; [by intros [= <-]|]. intros (k & _ & E)%obind_Ok. destruct (Nat.eqb _ _); [by apply IH in E|].
  apply obind_Ok in E as (ch & _ & E). apply obind_Ok in E as (d1 & E1 & E). apply IH in E. apply kk_setChildN in E1. congruence.
Qed.

Section Clean.
Context {V : Type} `{GoZero V}.
Notation TM := (M (st V)).
Notation HM := (M (heap V)).

Definition clean (h : heap V) : Prop := (forall a n, h_nodes h !! a = Some n -> cl n /\ a < h_next h).
Definition grow (h h' : heap V) : Prop := forall a n, h_nodes h !! a = Some n -> exists n', h_nodes h' !! a = Some n' /\ grows n n'.
Lemma grow_refl h : grow h h.
Proof. intros a n Hn. exists n. split; [done|apply grows_refl]. Qed.
Lemma grow_trans h1 h2 h3 : grow h1 h2 -> grow h2 h3 -> grow h1 h3.
Proof.
  intros H1 H2 a n Hn. destruct (H1 a n Hn) as (n' & Hn' & Hg). destruct (H2 a n' Hn') as (n'' & Hn'' & Hg'). exists n''. split; [done|].
  by eapply grows_trans.
Qed.

(** Programs on the memory and in a transaction that keep [clean] and only grow nodes, when they return. *)
Definition hc {A} (m : HM A) : Prop := forall h a h', clean h -> m h = (Ok a, h') -> clean h' /\ grow h h'.
Definition cp {A} (m : TM A) (s : st V) : Prop := clean (s_h s) -> forall a s', m s = (Ok a, s') -> clean (s_h s') /\ grow (s_h s) (s_h s').
Definition cv {A} (m : TM A) : Prop := forall s, cp m s.

Lemma hc_bind {A B} (m : HM A) (k : A -> HM B) : hc m -> (forall a, hc (k a)) -> hc (bind m k).
Proof.
  intros Hm Hk h b h' Hc. unfold bind. destruct (m h) as [[a| |] h1] eqn:E; [|done..]. intros E2.
  destruct (Hm _ _ _ Hc E) as [Hc1 Hg1]. destruct (Hk _ _ _ _ Hc1 E2) as [Hc2 Hg2]. split; [done|by eapply grow_trans].
Qed.
Lemma hc_same {A} (m : HM A) : (forall h, h_nodes (m h).2 = h_nodes h /\ h_next h <= h_next (m h).2) -> hc m.
Proof.
  intros Hm h a h' Hc E. destruct (Hm h) as [E1 E2]. rewrite E in E1, E2. cbn in *. split.
  - intros x n Hx. rewrite E1 in Hx. destruct (Hc x n Hx). split; [done|lia].
  - intros x n Hx. exists n. rewrite E1. split; [done|apply grows_refl].
Qed.
Lemma hc_ret {A} (a : A) : hc (ret a).
Proof. by apply hc_same. Qed.
Lemma hc_ho {A} (m : HM A) : ho m -> hc m.
Proof. intros Hm. apply hc_same. intros h. destruct (Hm h) as (? & ? & ?). done. Qed.
Lemma clean_insert h a n : clean h -> cl n -> a < h_next h -> clean (set_nodes h (<[a := n]> (h_nodes h))).
Proof.
  intros Hc Hn Ha x n' Hx. cbn in *. destruct (decide (x = a)) as [->|Hne]; [rewrite lookup_insert in Hx; by injection Hx as <-|].
  rewrite lookup_insert_ne in Hx by done. by apply Hc.
Qed.
Lemma grow_insert h a n n' : h_nodes h !! a = Some n -> grows n n' -> grow h (set_nodes h (<[a := n']> (h_nodes h))).
Proof.
  intros Ha Hg x m Hx. cbn. destruct (decide (x = a)) as [->|Hne].
  - rewrite lookup_insert. exists n'. split; [done|]. by assert (m = n) as -> by congruence.
  - rewrite lookup_insert_ne by done. exists m. split; [done|apply grows_refl].
Qed.
Lemma hc_allocN n : cl n -> hc (hallocN n).
Proof.
  intros Hn h a h' Hc [= <- <-]. split.
  - intros x m Hx. cbn in *. destruct (decide (x = h_next h)) as [->|Hne]; [rewrite lookup_insert in Hx; injection Hx as <-; split; [done|lia]|].
    rewrite lookup_insert_ne in Hx by done. destruct (Hc x m Hx). split; [done|lia].
  - intros x m Hx. cbn. exists m. destruct (Hc x m Hx). rewrite lookup_insert_ne by lia. split; [done|apply grows_refl].
Qed.
Lemma hc_updN a (f : inode -> inode) : (forall n, n_kind (f n) = n_kind n /\ n_nch (f n) = n_nch n /\ n_children (f n) = n_children n) ->
  hc (bind (hloadN a) (fun n => hstoreN a (f n))).
Proof.
  intros Hf h b h' Hc. unfold bind, hloadN. destruct (h_nodes h !! a) as [n|] eqn:Ha; [|done]. intros [= <- <-].
  destruct (Hf n) as (? & ? & ?). destruct (Hc a n Ha). split; [apply clean_insert; [done|by eapply cl_same|done]|eapply grow_insert; [done|by apply grows_same]].
Qed.
Lemma hc_getMutateChN a : hc (getMutateChN a).
Proof.
  intros h b h' Hc. unfold getMutateChN, bind, hloadN. destruct (h_nodes h !! a) as [n|] eqn:Ha; [|done].
  destruct (n_ch n); [intros [= <- <-]; split; [done|apply grow_refl]|]. intros [= <- <-]. destruct (Hc a n Ha). split.
  - apply (clean_insert (mkH (h_nodes h) (h_leaves h) (h_next h) (S (h_nextch h)) (h_closed h))); [done|by eapply cl_same|done].
  - intros x m Hx. cbn. destruct (decide (x = a)) as [->|Hne].
    + rewrite lookup_insert. eexists. split; [done|]. assert (m = n) as -> by congruence. by apply grows_same.
    + rewrite lookup_insert_ne by done. exists m. split; [done|apply grows_refl].
Qed.
Lemma hc_setMutateChN a c : hc (setMutateChN a c).
Proof. apply (hc_updN a (fun n => set_ch n (Some c))). done. Qed.

(** clone: the copy has the arrays of the original *)
Definition copy_of (h h' : heap V) (a a' : addr) : Prop :=
  forall n, h_nodes h !! a = Some n -> exists n', h_nodes h' !! a' = Some n' /\ grows n n'.
Lemma cloneN_copy a b h a' h' : clean h -> cloneN a b h = (Ok a', h') -> clean h' /\ grow h h' /\ copy_of h h' a a'.
Proof.
  intros Hc. unfold cloneN. unfold bind at 1.
  set (m0 := if b then bind (getMutateChN a) (fun c => ret (Some c)) else ret None).
  assert (Hm0 : hc m0).
  { unfold m0. destruct b; [apply hc_bind; [apply hc_getMutateChN|intros; apply hc_ret]|apply hc_ret]. }
  clearbody m0. destruct (m0 h) as [[c| |] h1] eqn:E; [|done..]. destruct (Hm0 _ _ _ Hc E) as [Hc1 Hg1].
  unfold bind, hloadN. destruct (h_nodes h1 !! a) as [n1|] eqn:Ha; [|done]. intros E2.
  assert (Hal : clean h' /\ grow h1 h').
  { eapply hc_allocN; [|exact Hc1|exact E2]. destruct (Hc1 _ _ Ha). by eapply cl_same. }
  destruct Hal as [Hc2 Hg2]. injection E2 as <- <-. split; [done|]. split; [by eapply grow_trans|].
  intros n Hn. destruct (Hg1 _ _ Hn) as (n1' & Hn1' & Hgn). assert (n1' = n1) as -> by congruence.
  cbn. rewrite lookup_insert. eexists. split; [done|]. eapply grows_trans; [done|by apply grows_same].
Qed.
Lemma hc_cloneN a b : hc (cloneN a b).
Proof. intros h a' h' Hc E. by destruct (cloneN_copy _ _ _ _ _ Hc E) as (? & ? & _). Qed.

(** ** Transactions *)
Lemma cp_bind {A B} (m : TM A) (k : A -> TM B) s :
  cp m s -> (forall a s', m s = (Ok a, s') -> clean (s_h s) -> clean (s_h s') -> grow (s_h s) (s_h s') -> cp (k a) s') -> cp (bind m k) s.
Proof.
  unfold cp, bind. intros Hm Hk Hc b s'. destruct (m s) as [[a| |] s1] eqn:E; [|done..]. intros E2.
  destruct (Hm Hc _ _ eq_refl) as [Hc1 Hg1]. destruct (Hk _ _ eq_refl Hc Hc1 Hg1 Hc1 _ _ E2) as [Hc2 Hg2]. split; [done|by eapply grow_trans].
Qed.
Lemma cv_bind {A B} (m : TM A) (k : A -> TM B) s : cv m -> (forall a s', cp (k a) s') -> cp (bind m k) s.
Proof. intros Hm Hk. apply cp_bind; [apply Hm|intros; apply Hk]. Qed.
Lemma cv_id {A} (m : TM A) : (forall s, (m s).2 = s) -> cv m.
Proof. intros Hm s Hc a s' E. specialize (Hm s). rewrite E in Hm. cbn in Hm. subst. split; [done|apply grow_refl]. Qed.
Lemma cv_ret {A} (a : A) : cv (ret a).
Proof. by apply cv_id. Qed.
Lemma cv_panic {A} : cv (panic (A:=A)).
Proof. by apply cv_id. Qed.
Lemma cv_nofuel {A} : cv (nofuel (A:=A)).
Proof. by apply cv_id. Qed.
Lemma cv_lift {A} (o : outcome A) : cv (lift o).
Proof. by apply cv_id. Qed.
Lemma cv_getH : cv getH.
Proof. by apply cv_id. Qed.
Lemma cv_getT : cv getT.
Proof. by apply cv_id. Qed.
Lemma cv_byteAt k i : cv (byteAt k i).
Proof. unfold byteAt. destruct (k !! i); [apply cv_ret|apply cv_panic]. Qed.
Lemma cv_putT t : cv (putT t).
Proof. intros s Hc a s' [= <- <-]. split; [done|apply grow_refl]. Qed.
Lemma cp_lift {A B} (o : outcome A) (k : A -> TM B) s : (forall a, o = Ok a -> cp (k a) s) -> cp (bind (lift o) k) s.
Proof. intros Hk. unfold cp, bind, lift. destruct o as [a| |]; [by apply Hk|done..]. Qed.
Lemma cv_liftH {A} (m : HM A) : hc m -> cv (liftH m).
Proof.
  intros Hm [h t] Hc a s'. unfold liftH. cbn [s_h s_t] in *. destruct (m h) as [o h'] eqn:E. intros [= -> <-]. cbn. by eapply Hm.
Qed.
Lemma cv_loadN a : cv (loadN (V:=V) a).
Proof. apply cv_liftH, hc_ho, ho_loadN. Qed.
Lemma cv_loadL a : cv (loadL (V:=V) a).
Proof. apply cv_liftH, hc_ho, ho_loadL. Qed.
Lemma cv_storeL a l : cv (storeL (V:=V) a l).
Proof. apply cv_liftH, hc_ho, ho_storeL. Qed.
Lemma cp_loadN {B} a (k : inode -> TM B) s : (forall n, h_nodes (s_h s) !! a = Some n -> cp (k n) s) -> cp (bind (loadN a) k) s.
Proof.
  intros Hk. apply cp_bind; [apply cv_loadN|]. intros l s'. unfold loadN, liftH, hloadN. destruct s as [h t]. cbn in *.
  destruct (h_nodes h !! a) as [l0|] eqn:E; [|done]. intros [= <- <-] _ _ _. by apply Hk.
Qed.
Lemma cp_updN a f s : (forall n n', h_nodes (s_h s) !! a = Some n -> cl n -> f n = Ok n' -> cl n' /\ grows n n') -> cp (updN (V:=V) a f) s.
Proof.
  intros Hf. unfold updN. apply cp_loadN. intros n Hn. apply cp_lift. intros n' E Hc [] s' [= <-]. cbn.
  destruct (Hc _ _ Hn) as [Hcl Hlt]. destruct (Hf n n' Hn Hcl E). split; [by apply clean_insert|by eapply grow_insert].
Qed.
Lemma cv_updN a f : gcl f -> cv (updN (V:=V) a f).
Proof. intros Hf s. apply cp_updN. intros n n' _. apply Hf. Qed.
Lemma cv_updN_same a (f : inode -> inode) :
  (forall n, n_kind (f n) = n_kind n /\ n_nch (f n) = n_nch n /\ n_children (f n) = n_children n) -> cv (updN (V:=V) a (fun n => Ok (f n))).
Proof. intros Hf. by apply cv_updN, gcl_same. Qed.
Lemma cv_nextId : cv (nextId (V:=V)).
Proof. intros s. apply cv_bind; [apply cv_getT|]. intros t s1. apply cv_bind; [apply cv_putT|]. intros [] s2. apply cv_ret. Qed.
Lemma cv_addTracked c : cv (addTracked (V:=V) c).
Proof. intros s. apply cv_bind; [apply cv_getT|]. intros t s1. apply cv_putT. Qed.
Hint Resolve cv_ret cv_panic cv_nofuel cv_lift cv_getH cv_getT cv_putT cv_byteAt cv_loadN cv_loadL cv_storeL cv_nextId cv_addTracked : cvdb.
Lemma cv_cp {A} (m : TM A) s : cv m -> cp m s.
Proof. intros Hm. apply Hm. Qed.
Ltac cvs :=
  repeat first
    [ match goal with
      | |- cp (bind ?m _) _ => apply cv_bind; [solve [auto with cvdb | let s := fresh in intros s; solve [cvs]]|intros ??]
      | |- cp (if ?b then _ else _) _ => destruct b
      | |- cp (match ?x with _ => _ end) _ => destruct x
      | |- cp _ _ => solve [apply cv_cp; auto with cvdb]
      end
    | match goal with |- cv _ => let s := fresh in intros s end ].
Lemma cv_live {A} (f : st V -> A) : cv (fun s => (Ok (f s), s)).
Proof. by apply cv_id. Qed.
Hint Resolve cv_live : cvdb.
Lemma cv_trackN a : cv (trackN (V:=V) a).
Proof.
  intros s. unfold trackN. apply cv_bind; [cvs|]. intros t s1. apply cv_bind; [apply cv_live|]. intros live s2.
  destruct (_ && _); [|cvs]. apply cv_bind; [apply cv_liftH, hc_getMutateChN|]. intros c s3. apply cv_bind; [cvs|]. intros [] s4.
  apply cv_bind; [apply cv_liftH, hc_ho, ho_makeChan|]. intros c' s5. apply cv_liftH, hc_setMutateChN.
Qed.
Lemma cv_trackL a : cv (trackL (V:=V) a).
Proof.
  intros s. unfold trackL. apply cv_bind; [cvs|]. intros t s1. apply cv_bind; [apply cv_live|]. intros live s2.
  destruct (_ && _); [|cvs]. apply cv_bind; [apply cv_liftH, hc_ho, ho_getMutateChL|]. intros c s3. apply cv_bind; [cvs|]. intros [] s4.
  apply cv_bind; [apply cv_liftH, hc_ho, ho_makeChan|]. intros c' s5. apply cv_liftH, hc_ho, ho_setMutateChL.
Qed.
Lemma cv_trackOptL o : cv (trackOptL (V:=V) o).
Proof. destruct o; [apply cv_trackL|apply cv_ret]. Qed.
Hint Resolve cv_trackN cv_trackL cv_trackOptL : cvdb.
Lemma cv_writeLeaf a b : cv (writeLeaf (V:=V) a b).
Proof.
  intros s. unfold writeLeaf. apply cv_bind; [destruct b; cvs|]. intros [] s1. apply cv_bind; [cvs|]. intros n s2. apply cv_bind; [cvs|]. intros t s3.
  destruct (Nat.ltb _ _); [cvs|]. apply cv_bind; [apply cv_liftH, hc_ho, ho_cloneL|]. intros a' s4. cvs.
Qed.
(** writeNode hands out the node itself or a copy of it *)
Lemma writeNode_copy a b s a' s' : clean (s_h s) -> writeNode (V:=V) a b s = (Ok a', s') ->
  clean (s_h s') /\ grow (s_h s) (s_h s') /\ copy_of (s_h s) (s_h s') a a'.
Proof.
  intros Hc. unfold writeNode. unfold bind at 1.
  set (m0 := if b then _ else ret tt). assert (Hm0 : cv m0) by (unfold m0; destruct b; cvs). clearbody m0.
  destruct (m0 s) as [[[]| |] s1] eqn:E; [|done..]. destruct (Hm0 _ Hc _ _ E) as [Hc1 Hg1].
  unfold bind at 1, loadN at 1, liftH, hloadN. destruct (h_nodes (s_h s1) !! a) as [n1|] eqn:Ha; [|done]. unfold bind at 1, getT. cbn [s_t].
  destruct (Nat.ltb _ _).
  { intros [= <- <-]. cbn. split; [done|]. split; [done|]. intros n Hn. destruct (Hg1 _ _ Hn) as (n' & ? & ?). eauto. }
  unfold bind at 1. cbn [s_h]. destruct (cloneN a (negb b) (s_h s1)) as [[a2| |] h2] eqn:E2; [|done..].
  destruct (cloneN_copy _ _ _ _ _ Hc1 E2) as (Hc2 & Hg2 & Hcp2).
  unfold bind at 1, nextId at 1, bind at 1, getT, bind at 1, putT. cbn [s_h s_t].
  unfold bind at 1, ret at 1, loadN, liftH, hloadN, bind at 1. cbn [s_h s_t].
  destruct (h_nodes h2 !! a2) as [n2|] eqn:Ha2; [|done]. intros [= <- <-]. cbn [s_h].
  destruct (Hc2 _ _ Ha2) as [Hcl2 Hlt2].
  split; [apply clean_insert; [done|by eapply cl_same|done]|]. split.
  - eapply grow_trans; [exact Hg1|]. eapply grow_trans; [exact Hg2|]. eapply grow_insert; [done|by apply grows_same].
  - intros n Hn. destruct (Hg1 _ _ Hn) as (n' & Hn' & Hgn). destruct (Hcp2 n' Hn') as (n2' & Hn2' & Hgn2). assert (n2' = n2) as -> by congruence.
    cbn. rewrite lookup_insert. eexists. split; [done|]. eapply grows_trans; [exact Hgn|]. eapply grows_trans; [exact Hgn2|]. by apply grows_same.
Qed.
Lemma cv_writeNode a b : cv (writeNode (V:=V) a b).
Proof. intros s Hc a' s' E. by destruct (writeNode_copy _ _ _ _ _ Hc E) as (? & ? & _). Qed.
Lemma cl_fresh k i : cl (set_plen (set_partial (set_id (zero_node k) i) (replicate maxPrefixLen 0)) maxPrefixLen).
Proof. intros Hk. cbn. split; [lia|]. intros j c Hj. apply lookup_replicate in Hj as [? _]. done. Qed.
Lemma cv_allocNode k : cv (allocNode (V:=V) k).
Proof. intros s. unfold allocNode. apply cv_bind; [cvs|]. intros i s1. apply cv_liftH, hc_allocN, cl_fresh. Qed.
Lemma cv_allocLeaf : cv (allocLeaf (V:=V)).
Proof. intros s. unfold allocLeaf. apply cv_bind; [cvs|]. intros i s1. apply cv_liftH, hc_ho, ho_allocL. Qed.
Lemma cv_setNodeLeaf a l : cv (setNodeLeaf (V:=V) a l).
Proof. by apply cv_updN_same. Qed.
Lemma cv_setKV l k v : cv (setKV (V:=V) l k v).
Proof. unfold setKV. cvs. Qed.
Lemma cv_copyPartial a src : cv (copyPartial (V:=V) a src).
Proof. by apply (cv_updN_same a (fun n => set_partial n (go_copy (n_partial n) 0 src))). Qed.
Hint Resolve cv_writeNode cv_writeLeaf cv_allocNode cv_allocLeaf cv_setNodeLeaf cv_setKV cv_copyPartial : cvdb.
Hint Extern 1 (cv (updN _ (fun n => Ok (set_plen n _)))) => (by eapply (cv_updN_same _ (fun n => set_plen n _))) : cvdb.
Hint Extern 1 (cv (updN _ (fun n => Ok (set_id n _)))) => (by eapply (cv_updN_same _ (fun n => set_id n _))) : cvdb.
Lemma cv_makeLeaf k v : cv (makeLeaf (V:=V) k v).
Proof. unfold makeLeaf. cvs. Qed.
Lemma cv_moveLeaf a l : cv (moveLeaf (V:=V) a l).
Proof. unfold moveLeaf. cvs. Qed.
Hint Resolve cv_makeLeaf cv_moveLeaf : cvdb.

(** the kind of a node never changes *)
Lemma grow_sk h h' a n n' : grow h h' -> h_nodes h !! a = Some n -> h_nodes h' !! a = Some n' -> n_kind n' = n_kind n.
Proof. intros Hg Ha Ha'. destruct (Hg a n Ha) as (n2 & Hn2 & [E _]). congruence. Qed.
Lemma cp_updN_uns a f s : kk f -> (forall n, h_nodes (s_h s) !! a = Some n -> sk n = false) -> cp (updN (V:=V) a f) s.
Proof. intros Hf Hk. apply cp_updN. intros n n' Hn _ E. apply unsorted_cl; [by eapply Hf|by apply Hk]. Qed.

(** ** addChild *)
Definition kind_at (k : kind) (a : addr) (s : st V) : Prop := exists n, h_nodes (s_h s) !! a = Some n /\ n_kind n = k.
Lemma kind_grow k a s s' : grow (s_h s) (s_h s') -> kind_at k a s -> kind_at k a s'.
Proof. intros Hg (n & Hn & <-). destruct (Hg a n Hn) as (n' & Hn' & [E _]). by exists n'. Qed.
Lemma kind_uns k a s : kind_at k a s -> match k with K256 => true | _ => false end = true -> forall n, h_nodes (s_h s) !! a = Some n -> sk n = false.
Proof. intros (n & Hn & E) Hk m Hm. assert (m = n) as -> by congruence. unfold sk. rewrite E. by destruct k. Qed.
Lemma allocNode_kind k s a s' : allocNode (V:=V) k s = (Ok a, s') -> kind_at k a s'.
Proof.
  unfold allocNode, bind, nextId, getT, putT, liftH, hallocN, ret. cbn. intros [= <- <-]. eexists. cbn. rewrite lookup_insert. split; [done|by destruct k].
Qed.
Lemma cp_addChild256 a c d s : kind_at K256 a s -> cp (addChild256 (V:=V) a c d) s.
Proof.
  intros Hk. unfold addChild256. apply cp_bind; [|intros; cvs]. apply cp_updN_uns; [apply kk_insert256|by eapply kind_uns].
Qed.
Lemma cp_addChild48 a c d s : kind_at K48 a s -> cp (addChild48 (V:=V) a c d) s.
Proof.
  intros Hk. unfold addChild48. apply cp_loadN. intros n Hn. destruct (Nat.ltb (n_nch n) 48) eqn:El.
  - apply cp_bind; [|intros; cvs]. apply cp_updN. intros n1 n' Hn1 Hcl E. assert (n1 = n) as -> by congruence. eapply insert48_cl; [|by apply Nat.ltb_lt|done|exact E].
    destruct Hk as (n2 & Hn2 & Ek). by assert (n2 = n) as -> by congruence.
  - apply cp_bind; [cvs|]. intros nn s1 E1 _ _ _. apply allocNode_kind in E1. apply cp_bind; [cvs|]. intros [] s2 _ _ _ Hg2.
    pose proof (kind_grow _ _ _ _ Hg2 E1) as Hk2. apply cp_bind; [apply cp_updN_uns; [apply kk_fill256|by eapply kind_uns]|]. intros [] s3 _ _ _ Hg3.
    pose proof (kind_grow _ _ _ _ Hg3 Hk2) as Hk3. apply cp_bind; [apply cp_updN_uns; [apply kk_copyHeader|by eapply kind_uns]|]. intros [] s4 _ _ _ Hg4.
    apply cp_addChild256. by eapply kind_grow.
Qed.
(** three updates of one node, seen as one *)
Lemma updN_inv a f s (r : unit) s' : updN (V:=V) a f s = (Ok r, s') -> exists n n', h_nodes (s_h s) !! a = Some n /\ f n = Ok n' /\
  s' = mkS (set_nodes (s_h s) (<[a := n']> (h_nodes (s_h s)))) (s_t s).
Proof.
  destruct s as [h t]. unfold updN, bind, loadN, liftH, hloadN, lift, storeN, hstoreN. cbn. destruct (h_nodes h !! a) as [n|] eqn:Ha; [|done]. cbn.
  destruct (f n) as [n'| |] eqn:Ef; [|done..]. cbn. intros [= _ <-]. eauto.
Qed.
(** programs that do not touch the inner nodes *)
Definition tn {A} (m : TM A) : Prop := forall s, h_nodes (s_h (m s).2) = h_nodes (s_h s).
Lemma tn_bind {A B} (m : TM A) (k : A -> TM B) : tn m -> (forall a, tn (k a)) -> tn (bind m k).
Proof.
  intros Hm Hk s. specialize (Hm s). unfold bind. destruct (m s) as [[a| |] s1]; cbn in *; [|done..]. specialize (Hk a s1). congruence.
Qed.
Lemma tn_liftH {A} (m : HM A) : ho m -> tn (liftH m).
Proof. intros Hm [h t]. unfold liftH. cbn. destruct (Hm h) as [E _]. by destruct (m h). Qed.
Lemma tn_trackL a : tn (trackL (V:=V) a).
Proof.
  unfold trackL. apply tn_bind; [done|]. intros t. apply tn_bind; [done|]. intros live. destruct (_ && _); [|done].
  apply tn_bind; [apply tn_liftH, ho_getMutateChL|]. intros c. apply tn_bind; [done|]. intros []. apply tn_bind; [done|]. intros c'. apply tn_liftH, ho_setMutateChL.
Qed.
Lemma tn_writeLeaf a b : tn (writeLeaf (V:=V) a b).
Proof.
  unfold writeLeaf. apply tn_bind; [destruct b; [apply tn_trackL|done]|]. intros []. apply tn_bind; [apply tn_liftH, ho_loadL|]. intros l.
  apply tn_bind; [done|]. intros t. destruct (Nat.ltb _ _); [done|]. apply tn_bind; [apply tn_liftH, ho_cloneL|]. intros a'.
  apply tn_bind; [done|]. intros i. apply tn_bind; [apply tn_liftH, ho_loadL|]. intros l'. apply tn_bind; [done|]. done.
Qed.
Lemma moveLeaf_nch a o s (r : unit) s' n' : moveLeaf (V:=V) a o s = (Ok r, s') -> h_nodes (s_h s') !! a = Some n' ->
  exists n, h_nodes (s_h s) !! a = Some n /\ n_nch n' = n_nch n.
Proof.
  unfold moveLeaf. destruct o as [l|]; [|intros [= _ <-]; eauto]. unfold bind at 1. destruct (writeLeaf l true s) as [[nl| |] s1] eqn:E; [|done..].
  pose proof (tn_writeLeaf l true s) as Et. rewrite E in Et. cbn in Et. intros (n & n1 & Hn & [= <-] & ->)%updN_inv. cbn. rewrite lookup_insert.
  intros [= <-]. rewrite Et in Hn. eauto.
Qed.
Lemma cp_addChild16 a c d s : kind_at K16 a s -> cp (addChild16 (V:=V) a c d) s.
Proof.
  intros Hk. unfold addChild16. apply cp_loadN. intros n Hn.
  assert (Hskn : sk n = true) by (destruct Hk as (n2 & Hn2 & Ek); assert (n2 = n) as -> by congruence; unfold sk; by rewrite Ek).
  destruct (Nat.ltb_spec (n_nch n) 16).
  - apply cp_bind; [|intros; cvs]. apply cp_updN. intros n1 n' Hn1 Hcl E. assert (n1 = n) as -> by congruence.
    eapply insertSorted_cl; [done|lia|done|exact E].
  - intros Hc0. assert (Hcln : cl n) by (by eapply Hc0). revert Hc0.
    apply cp_bind; [cvs|]. intros nn s1 E1 _ Hc1 _. assert (Hk1 : kind_at K48 nn s1) by (by eapply allocNode_kind).
    assert (Hn1 : forall m, h_nodes (s_h s1) !! nn = Some m -> n_nch m = 0).
    { revert E1. unfold allocNode, bind, nextId, getT, putT, liftH, hallocN, ret. cbn. intros [= <- <-]. cbn. intros m. rewrite lookup_insert.
      by intros [= <-]. }
    apply cp_bind; [cvs|]. intros [] s2 E2 _ Hc2 Hg2.
    assert (Hn2 : forall m, h_nodes (s_h s2) !! nn = Some m -> n_nch m = 0).
    { intros m Hm. destruct (moveLeaf_nch _ _ _ _ _ _ E2 Hm) as (m0 & Hm0 & ->). by apply Hn1. }
    pose proof (kind_grow _ _ _ _ Hg2 Hk1) as Hk2. clear E1 E2.
    intros _ r s'. unfold bind at 1. destruct (updN nn _ s2) as [[[]| |] s3] eqn:E3; [|done..].
    apply updN_inv in E3 as (m2 & m3 & Hm2 & [= <-] & ->).
    assert (Ek2 : n_kind m2 = K48). { destruct Hk2 as (m & Hm & Ek). by assert (m = m2) as -> by congruence. }
    unfold bind at 1. destruct (updN nn _ _) as [[[]| |] s4] eqn:E4; [|done..].
    apply updN_inv in E4 as (m3 & m4 & Hm3 & E4 & ->). cbn in Hm3. rewrite lookup_insert in Hm3. injection Hm3 as <-.
    apply fill48_same in E4 as (Ek4 & En4 & Ec4); [|done]. cbn in En4, Ec4.
    unfold bind at 1. destruct (updN nn _ _) as [[[]| |] s5] eqn:E5; [|done..].
    apply updN_inv in E5 as (m4' & m5 & Hm4 & E & ->). cbn in Hm4. rewrite lookup_insert in Hm4. injection Hm4 as <-.
    assert (n_kind m5 = K48 /\ n_nch m5 = n_nch n /\ n_children m5 = n_children m4) as (Ek5 & En5 & Ec5).
    { unfold copyHeader in E. destruct (_ && _); [|done]. by injection E as <-. }
    clear E. cbn [s_h s_t set_nodes h_nodes]. unfold set_nodes. cbn [h_nodes h_leaves h_next h_nextch h_closed].
    rewrite !insert_insert. destruct (Hc2 _ _ Hm2) as [Hcl2 Hlt2].
    assert (Hcl5 : cl m5).
    { intros Hk5. rewrite En5, Ec5, Ec4. split; [by apply Hcln|]. intros i x Hx.
      destruct (decide (i < n_nch n)) as [|Hge]; [done|]. exfalso. rewrite go_copy_lookup in Hx by (rewrite take_length; lia).
      assert (Hsk2 : sk m2 = true) by (unfold sk; by rewrite Ek2). apply Hcl2 in Hx; [|done]. rewrite (Hn2 _ Hm2) in Hx. lia. }
    assert (Hg5 : grows m2 m5).
    { split; [congruence|]. intros _. rewrite (Hn2 _ Hm2). lia. }
    assert (Hc5 : clean (set_nodes (s_h s2) (<[nn := m5]> (h_nodes (s_h s2))))) by (by apply clean_insert).
    assert (Hgr5 : grow (s_h s2) (set_nodes (s_h s2) (<[nn := m5]> (h_nodes (s_h s2))))) by (by eapply grow_insert).
    intros E6. eapply (cp_addChild48 nn c d) in E6; [|exists m5; cbn; rewrite lookup_insert; split; [done|done]|exact Hc5].
    destruct E6 as [? ?]. split; [done|]. by eapply grow_trans.
Qed.
Lemma cp_addChild4 a c d s : kind_at K4 a s -> cp (addChild4 (V:=V) a c d) s.
Proof.
  intros Hk. unfold addChild4. apply cp_loadN. intros n Hn.
  assert (Hskn : sk n = true) by (destruct Hk as (n2 & Hn2 & Ek); assert (n2 = n) as -> by congruence; unfold sk; by rewrite Ek).
  destruct (Nat.ltb_spec (n_nch n) 4).
  - apply cp_bind; [|intros; cvs]. apply cp_updN. intros n1 n' Hn1 Hcl E. assert (n1 = n) as -> by congruence.
    eapply insertSorted_cl; [done|lia|done|exact E].
  - intros Hc0. assert (Hcln : cl n) by (by eapply Hc0). revert Hc0.
    apply cp_bind; [cvs|]. intros nn s1 E1 _ Hc1 _. assert (Hk1 : kind_at K16 nn s1) by (by eapply allocNode_kind).
    assert (Hn1 : forall m, h_nodes (s_h s1) !! nn = Some m -> n_nch m = 0).
    { revert E1. unfold allocNode, bind, nextId, getT, putT, liftH, hallocN, ret. cbn. intros [= <- <-]. cbn. intros m. rewrite lookup_insert.
      by intros [= <-]. }
    apply cp_bind; [cvs|]. intros [] s2 E2 _ Hc2 Hg2.
    assert (Hn2 : forall m, h_nodes (s_h s2) !! nn = Some m -> n_nch m = 0).
    { intros m Hm. destruct (moveLeaf_nch _ _ _ _ _ _ E2 Hm) as (m0 & Hm0 & ->). by apply Hn1. }
    pose proof (kind_grow _ _ _ _ Hg2 Hk1) as Hk2. clear E1 E2.
    intros _ r s'. unfold bind at 1. destruct (updN nn _ s2) as [[[]| |] s3] eqn:E3; [|done..].
    apply updN_inv in E3 as (m2 & m3 & Hm2 & [= <-] & ->).
    unfold bind at 1. destruct (updN nn _ _) as [[[]| |] s4] eqn:E4; [|done..].
    apply updN_inv in E4 as (m3 & m4 & Hm3 & [= <-] & ->). cbn in Hm3. rewrite lookup_insert in Hm3. injection Hm3 as <-.
    unfold bind at 1. destruct (updN nn _ _) as [[[]| |] s5] eqn:E5; [|done..].
    apply updN_inv in E5 as (m4 & m5 & Hm4 & E & ->). cbn in Hm4. rewrite lookup_insert in Hm4. injection Hm4 as <-.
    unfold copyHeader in E. destruct (_ && _); [|done]. injection E as <-. cbn [s_h s_t set_nodes h_nodes]. unfold set_nodes. cbn [h_nodes h_leaves h_next h_nextch h_closed].
    rewrite !insert_insert. set (m5 := set_partial _ _). destruct (Hc2 _ _ Hm2) as [Hcl2 Hlt2].
    assert (Hcl5 : cl m5).
    { intros Hk5. unfold m5. cbn [n_nch n_children set_partial set_plen set_nch set_keys set_children]. split; [by apply Hcln|]. intros i x Hx.
      destruct (decide (i < n_nch n)) as [|Hge]; [done|]. exfalso. rewrite go_copy_lookup in Hx by (rewrite take_length; lia).
      assert (Hsk2 : sk m2 = true) by exact Hk5. apply Hcl2 in Hx; [|done]. rewrite (Hn2 _ Hm2) in Hx. lia. }
    assert (Hg5 : grows m2 m5).
    { split; [done|]. intros _. rewrite (Hn2 _ Hm2). lia. }
    assert (Hc5 : clean (set_nodes (s_h s2) (<[nn := m5]> (h_nodes (s_h s2))))) by (by apply clean_insert).
    assert (Hgr5 : grow (s_h s2) (set_nodes (s_h s2) (<[nn := m5]> (h_nodes (s_h s2))))) by (by eapply grow_insert).
    intros E6. eapply (cp_addChild16 nn c d) in E6; [|exists m5; cbn; rewrite lookup_insert; split; [done|]|exact Hc5].
    + destruct E6 as [? ?]. split; [done|]. by eapply grow_trans.
    + unfold m5. cbn. destruct Hk2 as (m & Hm & Ek). by assert (m = m2) as -> by congruence.
Qed.
Lemma cv_addChild a c d : cv (addChild (V:=V) a c d).
Proof.
  intros s. unfold addChild. apply cp_loadN. intros n Hn. destruct (n_kind n) eqn:Ek.
  - apply cp_addChild4. by exists n.
  - apply cp_addChild16. by exists n.
  - apply cp_addChild48. by exists n.
  - apply cp_addChild256. by exists n.
Qed.
Hint Resolve cv_addChild : cvdb.
Lemma cp_descend a n idx x ch s s1 a' s2 : clean (s_h s) -> h_nodes (s_h s) !! a = Some n -> (sk n = true -> idx < n_nch n) -> grow (s_h s) (s_h s1) -> clean (s_h s1) ->
  writeNode (V:=V) a x s1 = (Ok a', s2) -> cp (setChild (V:=V) a' idx ch) s2.
Proof.
  intros Hc Hn Hidx Hg Hc1 E. destruct (writeNode_copy _ _ _ _ _ Hc1 E) as (Hc2 & Hg2 & Hcp).
  destruct (Hg _ _ Hn) as (n1 & Hn1 & Hgn). destruct (Hcp _ Hn1) as (n2 & Hn2 & Hgn2).
  unfold setChild. apply cp_updN. intros m m' Hm Hcl Em. assert (m = n2) as -> by congruence.
  eapply setChildN_cl; [done| |exact Em]. pose proof (grows_trans _ _ _ Hgn Hgn2) as [Ek Hle]. intros Hk.
  assert (Hk' : sk n = true) by (unfold sk in *; by rewrite Ek in Hk). specialize (Hle Hk'). specialize (Hidx Hk'). lia.
Qed.
Lemma cp_step {A B} (m : TM A) (k : A -> TM B) s :
  cp m s -> (clean (s_h s) -> forall a s', m s = (Ok a, s') -> clean (s_h s') -> grow (s_h s) (s_h s') -> cp (k a) s') -> cp (bind m k) s.
Proof. intros Hm Hk. apply cp_bind; [done|]. intros a s' E Hc Hc' Hg. by eapply Hk. Qed.

Lemma cv_recursiveInsert key value : forall fuel,
  (forall node depth, cv (recursiveInsert (V:=V) fuel node key value depth)) /\ (forall node depth, cv (insertInner (V:=V) fuel node key value depth)).
Proof.
  assert (Hdesc : forall fuel node depth n c child idx s k,
    (forall node depth, cv (recursiveInsert (V:=V) fuel node key value depth)) ->
    h_nodes (s_h s) !! node = Some n -> findChild n c = Ok (Some child, idx) -> k = (fun (r : addr * V * bool * bool) => let '(newChild, val, mutatedSubTree, old) := r in
          let! node :=
            (if mutatedSubTree || negb (Nat.eqb newChild child) then
               trackN node ;;;
               let! node := writeNode node false in
               setChild node idx (Some newChild) ;;;
               ret node
             else ret node) in
          ret (node, val, mutatedSubTree, old)) ->
    cp (bind (recursiveInsert (V:=V) fuel child key value depth) k) s).
  { intros fuel node depth n c child idx s k IH Hn Hf ->. apply cp_step; [apply IH|]. intros Hc [[[newChild val] mu] old] s1 E1 Hc1 Hg1.
    assert (Hidx : sk n = true -> idx < n_nch n). { eapply findChild_idx; [by eapply Hc|exact Hf]. }
    apply cp_step; [|intros; cvs]. destruct (_ || _); [|cvs]. apply cp_step; [cvs|]. intros _ [] s2 E2 Hc2 Hg2.
    apply cp_step; [cvs|]. intros _ a' s3 E3 Hc3 Hg3. apply cp_step; [|intros; cvs].
    eapply (cp_descend _ n _ _ _ s); [exact Hc|exact Hn|exact Hidx| |exact Hc2|exact E3]. by eapply grow_trans. }
  induction fuel as [|fuel [IH1 IH2]]; (split; intros node depth; [cbn [recursiveInsert]|cbn [insertInner]]); [cvs..| |].
  - intros s. apply cv_bind; [cvs|]. intros t s0. destruct (_ =? 0)%N; [cvs|]. apply cv_bind; [cvs|]. intros n s1. destruct (n_leaf n) as [nodeLeaf|]; [|apply IH2].
    apply cv_bind; [cvs|]. intros nl s2. destruct (isLeafN n); [cvs|]. destruct (leafMatches (l_key nl) key) eqn:Em; [cvs|apply IH2].
  - intros s. apply cp_loadN. intros n Hn. destruct (Nat.ltb 0 (n_plen n)).
    + apply cp_bind; [cvs|]. intros h s' [= -> <-] _ _ _. apply cp_lift. intros pd _. destruct (Nat.leb _ _); [|cvs].
      destruct (Nat.ltb _ _).
      * unfold byteAt. destruct (key !! _) as [c|]; [|by intros Hc x s' E]. apply cp_bind; [cvs|]. intros [ch idx] s' E _ _ _.
        unfold bind, ret, lift in E. injection E as E <-. destruct ch as [child|]; [|cvs]. by eapply Hdesc.
      * apply cp_bind; [cvs|]. intros [ch idx] s' [= <- <- <-] _ _ _. cvs.
    + unfold byteAt. destruct (key !! depth) as [c|]; [|by intros Hc x s' E]. apply cp_bind; [cvs|]. intros c' s' [= <- <-] _ _ _. apply cp_lift. intros [ch idx] E.
      destruct ch as [child|]; [by eapply Hdesc|cvs].
Qed.

Lemma cv_txnInsert k v : cv (txnInsert (V:=V) k v).
Proof.
  intros s. unfold txnInsert. apply cv_bind; [cvs|]. intros t s1. apply cv_bind; [apply cv_recursiveInsert|]. intros [[[newRoot oldVal] m] old] s2.
  cvs.
Qed.
Lemma hc_treeInsert t k v : hc (treeInsert (V:=V) t k v).
Proof.
  intros h [t' r] h' Hc. unfold treeInsert, withTxn. destruct (newTxn t h) as [[tx| |] h1] eqn:E1; [|done..].
  assert (Hh1 : clean h1 /\ grow h h1).
  { revert E1. apply hc_bind; [apply hc_cloneN|intros; apply hc_ret|done]. }
  destruct Hh1 as [Hc1 Hg1]. destruct (txnInsert k v (mkS h1 tx)) as [[a| |] s2] eqn:E2; [|done..].
  destruct (cv_txnInsert k v (mkS h1 tx) Hc1 _ _ E2) as [Hc2 Hg2]. destruct (commit s2) as [[t2| |] s3] eqn:E3; [|done..]. intros [= _ _ <-].
  assert (Hcm : cv (commit (V:=V))).
  { intros s. unfold commit. apply cv_bind; [cvs|]. intros t0 s0. apply cv_bind; [|intros; cvs]. destruct (t_track t0); [|cvs]. unfold notify, slowNotify.
    intros s4. apply cv_bind; [cvs|]. intros t4 s5. destruct (t_track t4); [|cvs]. apply cv_bind; [cvs|]. intros t6 s6.
    apply cv_bind; [apply cv_liftH, hc_ho, ho_closeAll|]. intros; cvs. }
  destruct (Hcm _ Hc2 _ _ E3) as [Hc3 Hg3]. split; [done|]. eapply grow_trans; [exact Hg1|]. by eapply grow_trans.
Qed.
Lemma clean_newTree t (h : heap V) : newTree h_init = (Ok t, h) -> clean h.
Proof.
  intros [= _ <-]. intros a n. cbn. rewrite lookup_insert_Some, lookup_empty. intros [[<- <-]|[_ E]]; [|done]. split; [|lia].
  intros _. cbn. split; [lia|]. intros i c Hi. by do 4 (destruct i as [|i]; [done|]).
Qed.
Lemma build_clean (os : list (op V)) h t rs : Forall (fun o => match o with OInsert _ _ => True | _ => False end) os -> build os h t rs -> clean h.
Proof.
  intros Ho. unfold build, bind at 1. destruct (newTree h_init) as [[t0| |] h0] eqn:E0; [|done..]. apply clean_newTree in E0. revert t0 h0 E0 h t rs.
  induction os as [|o os IH]; intros t0 h0 Hc0 h t rs; cbn [treeOps]; [by intros [= _ _ <-]|]. apply Forall_cons in Ho as [Ho Hos].
  destruct o as [k v|k|k]; [|done..]. cbn [treeOp]. unfold bind at 1, bind at 1. destruct (treeInsert t0 k v h0) as [[[t1 r1]| |] h1] eqn:E1; [|done..].
  destruct (hc_treeInsert _ _ _ _ _ _ Hc0 E1) as [Hc1 _]. unfold ret at 1. unfold bind at 1. cbn [fst snd].
  destruct (treeOps os t1 h1) as [[[t2 rs2]| |] h2] eqn:E2; [|done..]. intros [= <- _ <-]. by eapply IH.
Qed.
End Clean.
