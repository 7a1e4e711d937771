(** Erasure of all watch channels but one: a tracking transaction either records the channel [c], or acts on
    the nodes marked with [c] exactly as the channel-free programs of Erase.v do. *)
From Verif Require Export Erase.
From stdpp Require Import list.
Local Open Scope nat_scope.

Section Mark.
Context {V : Type} `{GoZero V} (c : chan).
Notation HM := (M (heap V)).
Notation TM := (M (st V)).

Definition keepc (o : option chan) : option chan := if bool_decide (o = Some c) then Some c else None.
Definition ec_n (n : inode) : inode := set_ch n (keepc (n_ch n)).
Definition ec_h (h : heap V) : heap V := mkH (ec_n <$> h_nodes h) (er_l <$> h_leaves h) (h_next h) 0 [].
Definition ec (s : st V) : st V := mkS (ec_h (s_h s)) (er_t (s_t s)).

(** The channel exists and the transaction tracks. *)
Definition live (s : st V) : Prop := c < h_nextch (s_h s) /\ t_track (s_t s) = true.
(** [m] keeps the recorded channels. *)
Definition kpc {A} (m : TM A) : Prop := forall s, live s ->
  live (m s).2 /\ (c ∈ t_chs (s_t s) -> c ∈ t_chs (s_t (m s).2)).
(** [m] records [c] or behaves like [m0] modulo the other channels. *)
Definition msim {A B} (f : A -> B) (m : TM A) (m0 : TM B) : Prop := forall s, live s ->
  (live (m s).2 /\ (c ∈ t_chs (s_t s) -> c ∈ t_chs (s_t (m s).2))) /\
  (c ∈ t_chs (s_t (m s).2) \/ (omapo f (m s).1, ec (m s).2) = m0 (ec s)).
Definition mhsim {A B} (f : A -> B) (m : HM A) (m0 : HM B) : Prop := forall h, c < h_nextch h ->
  c < h_nextch (m h).2 /\ (omapo f (m h).1, ec_h (m h).2) = m0 (ec_h h).

Lemma msim_kpc {A B} (f : A -> B) m m0 : msim f m m0 -> kpc m.
Proof. intros Hm s Hl. apply (Hm s Hl). Qed.
Lemma kpc_bind {A B} (m : TM A) (k : A -> TM B) : kpc m -> (forall a, kpc (k a)) -> kpc (bind m k).
Proof.
  intros Hm Hk s Hl. unfold bind. destruct (Hm s Hl) as [L Mo]. destruct (m s) as [[a| |] s']; cbn in *; [|done..].
  destruct (Hk a s' L) as [L2 M2]. auto.
Qed.
Lemma msim_pure {A B} (f : A -> B) (m : TM A) m0 :
  (forall s, (m s).2 = s) -> (forall s, (omapo f (m s).1, ec s) = m0 (ec s)) -> msim f m m0.
Proof. intros E1 E2 s Hl. rewrite E1. split; [done|]. right. apply E2. Qed.
Lemma msim_ret {A B} (f : A -> B) a b : f a = b -> msim f (ret a) (ret b).
Proof. intros <-. by apply msim_pure. Qed.
Lemma msim_bind {A B A' B'} (f : A -> A') (g : B -> B') m m0 k k0 :
  msim f m m0 -> (forall a, msim g (k a) (k0 (f a))) -> msim g (bind m k) (bind m0 k0).
Proof.
  intros Hm Hk s Hl. unfold bind. destruct (Hm s Hl) as [[L Mo] D].
  destruct (m s) as [[a| |] s']; cbn [fst snd omapo] in *.
  - destruct (Hk a s' L) as [[L2 M2] D2]. split; [auto|]. destruct D as [D|D]; [left; auto|].
    destruct D2 as [D2|D2]; [by left|]. right. rewrite <- D. exact D2.
  - split; [auto|]. destruct D as [D|D]; [by left|]. right. by rewrite <- D.
  - split; [auto|]. destruct D as [D|D]; [by left|]. right. by rewrite <- D.
Qed.
Lemma msim_panic {A B} (f : A -> B) : msim f panic panic.
Proof. by apply msim_pure. Qed.
Lemma msim_nofuel {A B} (f : A -> B) : msim f nofuel nofuel.
Proof. by apply msim_pure. Qed.
Lemma msim_lift {A B} (f : A -> B) o o0 : omapo f o = o0 -> msim f (lift o) (lift o0).
Proof. intros <-. by apply msim_pure. Qed.
Lemma msim_skip {A B} (g : A -> B) m k k0 : msim id m (ret tt) -> msim g k k0 -> msim g (m ;;; k) k0.
Proof.
  intros Hm Hk s Hl. pose proof (msim_bind id g m (ret tt) (fun _ => k) (fun _ => k0) Hm (fun _ => Hk) s Hl) as E.
  exact E.
Qed.
Lemma msim_if {A B} (f : A -> B) (b : bool) m m0 k k0 :
  msim f m m0 -> msim f k k0 -> msim f (if b then m else k) (if b then m0 else k0).
Proof. destruct b; auto. Qed.
Lemma msim_eq {A B} (f : A -> B) m m0 m1 : msim f m m0 -> (forall s, m0 s = m1 s) -> msim f m m1.
Proof. intros Hs E s Hl. rewrite <- E. by apply Hs. Qed.
Lemma msim_liftH {A B} (f : A -> B) m m0 : mhsim f m m0 -> msim f (liftH m) (liftH m0).
Proof.
  intros Hm s [Hl Ht]. unfold liftH. cbn. destruct (Hm _ Hl) as [L E]. rewrite <- E.
  destruct (m (s_h s)) as [o h']. cbn in *. split; [|by right]. split; [by split|done].
Qed.

(** ** Primitives *)
Lemma ec_lookup h a : h_nodes (ec_h h) !! a = ec_n <$> h_nodes h !! a.
Proof. apply lookup_fmap. Qed.
Lemma ec_lookupL h a : h_leaves (ec_h h) !! a = er_l <$> h_leaves h !! a.
Proof. apply lookup_fmap. Qed.

Lemma mhsim_loadN a : mhsim ec_n (hloadN a) (hloadN a).
Proof. intros h Hl. unfold hloadN. rewrite ec_lookup. destruct (h_nodes h !! a); done. Qed.
Lemma mhsim_loadL a : mhsim er_l (hloadL a) (hloadL a).
Proof. intros h Hl. unfold hloadL. rewrite ec_lookupL. destruct (h_leaves h !! a); done. Qed.
Lemma mhsim_storeN a n n0 : ec_n n = n0 -> mhsim id (hstoreN a n) (hstoreN a n0).
Proof. intros <- h Hl. split; [done|]. unfold hstoreN, ec_h, set_nodes. cbn. rewrite fmap_insert. reflexivity. Qed.
Lemma mhsim_storeL a n n0 : er_l n = n0 -> mhsim id (hstoreL a n) (hstoreL a n0).
Proof. intros <- h Hl. split; [done|]. unfold hstoreL, ec_h, set_leaves. cbn. rewrite fmap_insert. reflexivity. Qed.
Lemma mhsim_allocN n n0 : ec_n n = n0 -> mhsim id (hallocN n) (hallocN n0).
Proof. intros <- h Hl. split; [done|]. unfold hallocN, ec_h, set_nodes. cbn. rewrite fmap_insert. reflexivity. Qed.
Lemma mhsim_allocL n n0 : er_l n = n0 -> mhsim id (hallocL n) (hallocL n0).
Proof. intros <- h Hl. split; [done|]. unfold hallocL, ec_h, set_leaves. cbn. rewrite fmap_insert. reflexivity. Qed.

Lemma msim_loadN a : msim ec_n (loadN a) (loadN a).
Proof. apply msim_liftH, mhsim_loadN. Qed.
Lemma msim_loadL a : msim er_l (loadL a) (loadL a).
Proof. apply msim_liftH, mhsim_loadL. Qed.
Lemma msim_storeN a n n0 : ec_n n = n0 -> msim id (storeN a n) (storeN a n0).
Proof. intros. by apply msim_liftH, mhsim_storeN. Qed.
Lemma msim_storeL a n n0 : er_l n = n0 -> msim id (storeL a n) (storeL a n0).
Proof. intros. by apply msim_liftH, mhsim_storeL. Qed.
Lemma msim_getT : msim er_t getT getT.
Proof. by apply msim_pure. Qed.
Lemma msim_getH : msim ec_h getH getH.
Proof. by apply msim_pure. Qed.
Lemma msim_byteAt k i : msim id (byteAt k i) (byteAt k i).
Proof. apply msim_pure; intros s; unfold byteAt; by destruct (k !! i). Qed.
(** the transaction record may change as long as tracking and the recorded channels stay *)
Lemma msim_putT_of {A B} (f : txn -> txn) (f0 : txn -> txn) (k : TM A) (k0 : TM B) g :
  (forall t, er_t (f t) = f0 (er_t t) /\ t_track (f t) = t_track t /\ t_chs (f t) = t_chs t) ->
  msim g k k0 ->
  msim g (let! t := getT in putT (f t) ;;; k) (let! t := getT in putT (f0 t) ;;; k0).
Proof.
  intros Hf Hk s [L1 L2]. unfold bind, getT, putT. cbn. destruct (Hf (s_t s)) as (E1 & E2 & E3).
  destruct (Hk (mkS (s_h s) (f (s_t s)))) as [[K1 K2] K3].
  { split; cbn; [done|by rewrite E2]. }
  cbn in K2. rewrite E3 in K2. split; [done|].
  destruct K3 as [K3|K3]; [by left|right]. rewrite K3. unfold ec. cbn. by rewrite E1.
Qed.
Lemma msim_putT_last (f : txn -> txn) (f0 : txn -> txn) :
  (forall t, er_t (f t) = f0 (er_t t) /\ t_track (f t) = t_track t /\ t_chs (f t) = t_chs t) ->
  msim id (let! t := getT in putT (f t)) (let! t := getT in putT (f0 t)).
Proof.
  intros Hf s [L1 L2]. unfold bind, getT, putT. cbn. destruct (Hf (s_t s)) as (E1 & E2 & E3).
  split; [split|]; [by split; cbn; rewrite ?E2|by rewrite E3|]. right. unfold ec. cbn. by rewrite E1.
Qed.
Lemma msim_nextId : msim id nextId nextId.
Proof. intros s Hl. split; [by split|]. by right. Qed.

Lemma keepc_other o : o <> Some c -> keepc o = None.
Proof. intros E. unfold keepc. by rewrite bool_decide_eq_false_2. Qed.
Lemma ec_n_ch n x : x <> c -> keepc (n_ch n) = None -> ec_n (set_ch n (Some x)) = ec_n n.
Proof. intros Hx E. unfold ec_n. rewrite E. cbn. rewrite keepc_other by congruence. reflexivity. Qed.
Lemma fmap_insert_ec (m : gmap nat inode) a n n' :
  m !! a = Some n -> ec_n n' = ec_n n -> ec_n <$> <[a:=n']> m = ec_n <$> m.
Proof. intros Hn E. rewrite fmap_insert, E. apply insert_id. rewrite lookup_fmap, Hn. done. Qed.

Lemma msim_trackN a : msim id (trackN a) (ret tt).
Proof.
  intros s [L1 L2].
  destruct (h_nodes (s_h s) !! a) as [n|] eqn:En; [|rewrite trackN_none by done; split; [done|by right]].
  erewrite trackN_on by done. cbn [fst snd]. split; [split|].
  - split; [|done]. unfold trackedN. cbn. destruct (n_ch n); cbn; lia.
  - cbn. intros. apply elem_of_app. by left.
  - cbn. destruct (decide (n_ch n = Some c)) as [E|E].
    + left. rewrite E. cbn. apply elem_of_app. right. by left.
    + right. unfold ret. f_equal. unfold ec. cbn. f_equal. unfold trackedN.
      destruct (n_ch n) as [x|] eqn:Ec; unfold ec_h; cbn; (erewrite fmap_insert_ec; [done|exact En|]);
        (apply ec_n_ch; [lia|rewrite Ec; by apply keepc_other]).
Qed.
Lemma msim_trackL a : msim id (trackL a) (ret tt).
Proof.
  intros s [L1 L2].
  destruct (h_leaves (s_h s) !! a) as [n|] eqn:En; [|rewrite trackL_none by done; split; [done|by right]].
  erewrite trackL_on by done. cbn [fst snd]. split; [split|].
  - split; [|done]. unfold trackedL. cbn. destruct (l_ch n); cbn; lia.
  - cbn. intros. apply elem_of_app. by left.
  - cbn. right. unfold ret. f_equal. unfold ec. cbn. f_equal. unfold trackedL.
    destruct (l_ch n); unfold ec_h; cbn; by erewrite fmap_insert_erL.
Qed.
Lemma msim_trackOptL o : msim id (trackOptL o) (ret tt).
Proof. destruct o; cbn; [apply msim_trackL|by apply msim_ret]. Qed.
Lemma msim_trackAllN l : msim id (trackAllN l) (ret tt).
Proof. induction l; cbn; [by apply msim_ret|]. apply msim_skip; [apply msim_trackN|done]. Qed.

(** ** Copying a node *)
Lemma mhsim_cloneN_true a : mhsim id (cloneN a true) (ecloneN a).
Proof.
  intros h Hl. unfold cloneN, ecloneN. destruct (h_nodes h !! a) as [n|] eqn:Hn.
  - erewrite (bind_ok (hloadN a) _ (ec_h h)); [|unfold hloadN; rewrite ec_lookup, Hn; reflexivity].
    erewrite bind_ok; [|erewrite bind_ok; [|by eapply getMutateChN_eq]; reflexivity].
    destruct (n_ch n) as [x|] eqn:Ex; cbn.
    + erewrite bind_ok; [|unfold hloadN; by rewrite Hn]. unfold ec_h, hallocN; cbn. split; [done|].
      rewrite fmap_insert. do 3 f_equal. unfold ec_n. cbn. rewrite Ex. done.
    + erewrite bind_ok; [|unfold hloadN; cbn; by rewrite lookup_insert]. unfold ec_h, hallocN; cbn.
      split; [lia|].
      rewrite fmap_insert. erewrite fmap_insert_ec; [|exact Hn|apply ec_n_ch; [lia|by rewrite Ex]].
      do 3 f_equal. unfold ec_n. cbn. rewrite Ex, keepc_other by (intros [=]; lia). done.
  - rewrite (bind_panic _ _ (ec_h h) (ec_h h)); [|unfold hloadN; by rewrite ec_lookup, Hn].
    rewrite (bind_panic _ _ h h); [done|]. unfold getMutateChN, bind, hloadN; by rewrite Hn.
Qed.
Lemma cloneN_false h a n : h_nodes h !! a = Some n -> n_ch n <> Some c ->
  (cloneN a false h).2.(h_nextch) = h_nextch h /\
  (omapo id (cloneN a false h).1, ec_h (cloneN a false h).2) = ecloneN a (ec_h h).
Proof.
  intros Hn Hc. unfold cloneN, ecloneN.
  erewrite (bind_ok (hloadN a) _ (ec_h h)); [|unfold hloadN; rewrite ec_lookup, Hn; reflexivity].
  erewrite bind_ok; [|reflexivity].
  erewrite bind_ok; [|unfold hloadN; by rewrite Hn]. unfold ec_h, hallocN; cbn. split; [done|].
  rewrite fmap_insert. do 3 f_equal. unfold ec_n. cbn. rewrite (keepc_other (n_ch n)) by done. done.
Qed.
Lemma kpc_cloneN a b : kpc (liftH (cloneN a b)).
Proof.
  intros s Hl. destruct b.
  - eapply msim_kpc; [apply msim_liftH, mhsim_cloneN_true|done].
  - unfold liftH, cloneN, bind, ret, hloadN, hallocN. destruct Hl as [L1 L2].
    destruct (h_nodes (s_h s) !! a); cbn; by repeat split.
Qed.
Lemma mhsim_cloneL a kw : mhsim id (cloneL a kw) (let! n := hloadL a in hallocL n).
Proof.
  intros h Hl. unfold cloneL. destruct (h_leaves h !! a) as [n|] eqn:Hn.
  - erewrite (bind_ok (hloadL a) _ (ec_h h)); [|unfold hloadL; rewrite ec_lookupL, Hn; reflexivity].
    destruct kw.
    + erewrite bind_ok; [|erewrite bind_ok; [|by eapply getMutateChL_eq]; reflexivity].
      destruct (l_ch n); cbn.
      * erewrite bind_ok; [|unfold hloadL; by rewrite Hn]. unfold ec_h, hallocL; cbn. split; [done|]. by rewrite fmap_insert.
      * erewrite bind_ok; [|unfold hloadL; cbn; by rewrite lookup_insert]. unfold ec_h, hallocL; cbn.
        split; [lia|].
        rewrite fmap_insert. erewrite fmap_insert_erL; [|exact Hn|done]. reflexivity.
    + erewrite bind_ok; [|reflexivity].
      erewrite bind_ok; [|unfold hloadL; by rewrite Hn]. unfold ec_h, hallocL; cbn. split; [done|]. by rewrite fmap_insert.
  - rewrite (bind_panic _ _ (ec_h h) (ec_h h)); [|unfold hloadL; by rewrite ec_lookupL, Hn].
    destruct kw; [rewrite (bind_panic _ _ h h)|erewrite bind_ok, bind_panic]; try done.
    all: unfold getMutateChL, bind, hloadL; by rewrite Hn.
Qed.

Definition wn_rest (a : addr) (b : bool) : TM addr :=
  let! n := loadN a in
  let! t := getT in
  if Nat.ltb (t_oldmax t) (n_id n) then ret a
  else let! a' := liftH (cloneN a b) in let! i := nextId in
       let! n' := loadN a' in storeN a' (set_id n' i) ;;; ret a'.
Lemma ewriteNode_eq (a : addr) (s : st V) :
  (let! n := loadN a in
   let! t := getT in
   if Nat.ltb (t_oldmax t) (n_id n) then ret a
   else let! a' := liftH (ecloneN a) in let! i := nextId in
        let! n' := loadN a' in storeN a' (set_id n' i) ;;; ret a') s = ewriteNode a s.
Proof.
  unfold ewriteNode. destruct (h_nodes (s_h s) !! a) as [n|] eqn:E.
  + erewrite bind_ok; [|eapply liftH_ok; unfold hloadN; by rewrite E].
    erewrite bind_ok; [|reflexivity]. cbn. destruct (Nat.ltb _ _); [by destruct s|].
    erewrite bind_ok; [|eapply liftH_ok; unfold ecloneN; erewrite bind_ok; [|unfold hloadN; cbn; by rewrite E]; reflexivity].
    erewrite bind_ok; [|reflexivity].
    erewrite bind_ok; [|eapply liftH_ok; unfold hloadN; cbn; by rewrite lookup_insert].
    unfold storeN, bind, liftH, hstoreN, set_nodes; cbn. by rewrite insert_insert.
  + unfold bind, loadN, liftH, hloadN. rewrite E. by destruct s.
Qed.
Lemma wn_rest_kpc a b : kpc (wn_rest a b).
Proof.
  unfold wn_rest. eapply kpc_bind; [eapply msim_kpc, msim_loadN|intros n].
  eapply kpc_bind; [eapply msim_kpc, msim_getT|intros t]. destruct (Nat.ltb _ _).
  { eapply msim_kpc. by apply (msim_ret id). }
  eapply kpc_bind; [apply kpc_cloneN|intros a']. eapply kpc_bind; [eapply msim_kpc, msim_nextId|intros i].
  eapply kpc_bind; [eapply msim_kpc, msim_loadN|intros n']. eapply kpc_bind; [eapply msim_kpc; by apply msim_storeN|intros _].
  eapply msim_kpc. by apply (msim_ret id).
Qed.
Lemma wn_rest_true a : msim id (wn_rest a true) (ewriteNode a).
Proof.
  eapply msim_eq; [|intros s; apply ewriteNode_eq].
  unfold wn_rest. eapply msim_bind; [apply msim_loadN|intros n]. eapply msim_bind; [apply msim_getT|intros t].
  apply msim_if; [by apply msim_ret|].
  eapply msim_bind; [apply msim_liftH, mhsim_cloneN_true|intros a']. eapply msim_bind; [apply msim_nextId|intros i].
  eapply msim_bind; [apply msim_loadN|intros n']. eapply msim_bind; [by apply msim_storeN|intros _]. by apply msim_ret.
Qed.
Lemma wn_rest_false a s n : live s -> h_nodes (s_h s) !! a = Some n -> n_ch n <> Some c ->
  c ∈ t_chs (s_t (wn_rest a false s).2) \/
  (omapo id (wn_rest a false s).1, ec (wn_rest a false s).2) = ewriteNode a (ec s).
Proof.
  intros [L1 L2] Hn Hc. rewrite <- ewriteNode_eq. unfold wn_rest.
  erewrite bind_ok; [|eapply liftH_ok; unfold hloadN; by rewrite Hn].
  erewrite (bind_ok (loadN a) _ (ec s)); [|eapply liftH_ok; unfold hloadN; cbn; by rewrite lookup_fmap, Hn].
  erewrite bind_ok; [|reflexivity]. erewrite (bind_ok getT); [|reflexivity]. cbn [s_t er_t t_oldmax ec_n n_id set_ch ec].
  destruct (Nat.ltb _ _); [right; by destruct s|].
  destruct (cloneN_false _ _ _ Hn Hc) as [E1 E2].
  assert (Hk : msim id (let! i := nextId in
       let! n' := loadN (h_next (s_h s)) in storeN (h_next (s_h s)) (set_id n' i) ;;; ret (h_next (s_h s)))
       (let! i := nextId in
       let! n' := loadN (h_next (s_h s)) in storeN (h_next (s_h s)) (set_id n' i) ;;; ret (h_next (s_h s)))).
  { eapply msim_bind; [apply msim_nextId|intros i].
    eapply msim_bind; [apply msim_loadN|intros n']. eapply msim_bind; [by apply msim_storeN|intros _]. by apply msim_ret. }
  assert (Ex : exists h', cloneN a false (s_h s) = (Ok (h_next (s_h s)), h')).
  { unfold cloneN. erewrite bind_ok; [|reflexivity]. erewrite bind_ok; [|unfold hloadN; by rewrite Hn].
    unfold hallocN. eauto. }
  destruct Ex as [h' Ex]. rewrite Ex in E1, E2. cbn in E1, E2.
  erewrite (bind_ok (liftH (cloneN a false))); [|eapply liftH_ok; exact Ex].
  erewrite (bind_ok (liftH (ecloneN a))); [|eapply liftH_ok; symmetry; exact E2].
  apply (Hk (mkS h' (s_t s))). split; cbn; [by rewrite E1|done].
Qed.

Lemma trackOptL_nodes o (s : st V) : h_nodes (s_h (trackOptL o s).2) = h_nodes (s_h s) /\ (trackOptL o s).1 = Ok tt.
Proof.
  destruct o as [a|]; [|done]. unfold trackOptL. destruct (t_track (s_t s)) eqn:Et; [|by rewrite trackL_off].
  destruct (h_leaves (s_h s) !! a) eqn:E; [|by rewrite trackL_none].
  erewrite trackL_on by done. split; [|done]. cbn. unfold trackedL. by destruct (l_ch _).
Qed.
Lemma msim_writeNode a b : msim id (writeNode a b) (ewriteNode a).
Proof.
  unfold writeNode. destruct b; cbn [negb]; [|apply msim_skip; [by apply msim_ret|apply wn_rest_true]].
  change (msim id ((trackN a ;;; (let! n := loadN a in trackOptL (n_leaf n))) ;;; wn_rest a false) (ewriteNode a)).
  assert (Hp : msim id (trackN a ;;; (let! n := loadN a in trackOptL (n_leaf n))) (loadN a ;;; ret tt)).
  { apply msim_skip; [apply msim_trackN|]. eapply msim_bind; [apply msim_loadN|intros n; apply msim_trackOptL]. }
  intros s Hl. split; [apply kpc_bind; [by eapply msim_kpc|intros _; apply wn_rest_kpc|done]|].
  destruct (Hp s Hl) as [[L1 Mo] D].
  destruct (h_nodes (s_h s) !! a) as [n|] eqn:Hn; cycle 1.
  { erewrite bind_panic; [|erewrite bind_ok; [|by apply trackN_none]; unfold bind, loadN, liftH, hloadN; by rewrite Hn].
    right. unfold ewriteNode. cbn. rewrite lookup_fmap, Hn. by destruct s. }
  assert (exists s' n', (trackN a ;;; (let! n := loadN a in trackOptL (n_leaf n))) s = (Ok tt, s') /\
            h_nodes (s_h s') !! a = Some n' /\ n_ch n' <> Some c) as (s' & n' & E & Hn' & Hc').
  { pose proof Hl as [G1 G2]. unfold bind at 1. erewrite trackN_on by done.
    assert (Hn' : exists n', h_nodes (trackedN (s_h s) a n) !! a = Some n' /\ n_ch n' <> Some c).
    { unfold trackedN. destruct (n_ch n); cbn; (eexists; split; [apply lookup_insert|cbn; intros [=]; lia]). }
    destruct Hn' as (n' & Hn' & Hc').
    erewrite bind_ok; [|eapply liftH_ok; unfold hloadN; cbn; by rewrite Hn'].
    match goal with |- context[trackOptL ?o ?st] => destruct (trackOptL_nodes o st) as [T1 T2];
      destruct (trackOptL o st) as [oo s'] end.
    cbn in T1, T2. subst oo. exists s', n'. split_and!; [done| |done]. by rewrite T1. }
  rewrite (bind_ok _ _ _ _ _ E). rewrite E in D, L1. cbn [fst snd] in *.
  destruct D as [D|D]; [left; by apply (wn_rest_kpc a false s' L1)|].
  destruct (wn_rest_false a s' n' L1 Hn' Hc') as [K|K]; [by left|right]. rewrite K.
  replace (ec s') with (ec s); [done|].
  revert D. unfold bind, loadN, liftH, hloadN. cbn. rewrite lookup_fmap, Hn. cbn. unfold ret.
  intros D. apply (f_equal snd) in D. cbn in D. rewrite D. by destruct s.
Qed.

Lemma msim_writeLeaf a b : msim id (writeLeaf a b) (ewriteLeaf a).
Proof.
  set (m1 := let! n := loadL (V:=V) a in
             let! t := getT in
             if Nat.ltb (t_oldmax t) (l_id n) then ret a
             else let! a' := liftH (let! n := hloadL a in hallocL n) in let! i := nextId in
                  let! n' := loadL a' in storeL a' (setl_id n' i) ;;; ret a').
  apply (msim_eq _ _ m1).
  - unfold writeLeaf. apply msim_skip.
    { destruct b; [apply msim_trackL|by apply msim_ret]. }
    eapply msim_bind; [apply msim_loadL|intros n]. eapply msim_bind; [apply msim_getT|intros t].
    apply msim_if; [by apply msim_ret|].
    eapply msim_bind; [apply msim_liftH, mhsim_cloneL|intros a']. eapply msim_bind; [apply msim_nextId|intros i].
    eapply msim_bind; [apply msim_loadL|intros n']. eapply msim_bind; [by apply msim_storeL|intros _]. by apply msim_ret.
  - intros s. unfold m1, ewriteLeaf. destruct (h_leaves (s_h s) !! a) as [n|] eqn:E.
    + erewrite bind_ok; [|eapply liftH_ok; unfold hloadL; by rewrite E].
      erewrite bind_ok; [|reflexivity]. cbn. destruct (Nat.ltb _ _); [by destruct s|].
      erewrite bind_ok; [|eapply liftH_ok; erewrite bind_ok; [|unfold hloadL; cbn; by rewrite E]; reflexivity].
      erewrite bind_ok; [|reflexivity].
      erewrite bind_ok; [|eapply liftH_ok; unfold hloadL; cbn; by rewrite lookup_insert].
      unfold storeL, bind, liftH, hstoreL, set_leaves; cbn. by rewrite insert_insert.
    + unfold bind, loadL, liftH, hloadL. rewrite E. by destruct s.
Qed.

(** ** Readers do not see channels *)
Lemma er_ec h : er_h (ec_h h) = er_h h.
Proof.
  unfold er_h, ec_h. cbn. rewrite <- map_fmap_compose, <- map_fmap_compose. f_equal;
  apply map_fmap_ext; intros; reflexivity.
Qed.
Lemma ec_minimum fuel h o : minimum fuel (ec_h h) o = minimum fuel h o.
Proof. by rewrite <- er_minimum, er_ec, er_minimum. Qed.
Lemma ec_prefixMismatch h a n key depth :
  prefixMismatch (ec_h h) a (ec_n n) key depth = prefixMismatch h a n key depth.
Proof. rewrite <- er_prefixMismatch, er_ec. rewrite <- (er_prefixMismatch h). done. Qed.

(** ** Node routines commute with the marking *)
Lemma ec_setKeyAtIdx n i k : setKeyAtIdx (ec_n n) i k = omapo ec_n (setKeyAtIdx n i k).
Proof. unfold setKeyAtIdx. cbn. destruct (n_kind n), (Nat.ltb i (length (n_keys n))); done. Qed.
Lemma ec_setChildN n i k : setChildN (ec_n n) i k = omapo ec_n (setChildN n i k).
Proof. unfold setChildN. cbn. destruct (Nat.ltb _ _); done. Qed.
Lemma ec_insertSorted n cc ch : insertSorted (ec_n n) cc ch = omapo ec_n (insertSorted n cc ch).
Proof.
  unfold insertSorted. cbn zeta. rewrite omapo_obind.
  match goal with |- obind (setKeyAtIdx (set_children (set_keys (ec_n n) ?k) ?cc) ?i ?x) _ = _ =>
    change (setKeyAtIdx (set_children (set_keys (ec_n n) k) cc) i x)
      with (setKeyAtIdx (ec_n (set_children (set_keys n k) cc)) i x) end.
  rewrite ec_setKeyAtIdx, obind_omapo. apply obind_ext. intros n1.
  rewrite ec_setChildN, obind_omapo, omapo_obind. apply obind_ext. done.
Qed.
Lemma ec_insert48 n cc ch : insert48 (ec_n n) cc ch = omapo ec_n (insert48 n cc ch).
Proof.
  unfold insert48. rewrite omapo_obind. apply obind_ext. intros pos.
  rewrite ec_setChildN, obind_omapo, omapo_obind. apply obind_ext. intros n1.
  rewrite ec_setKeyAtIdx, obind_omapo, omapo_obind. apply obind_ext. done.
Qed.
Lemma ec_insert256 n cc ch : insert256 (ec_n n) cc ch = omapo ec_n (insert256 n cc ch).
Proof.
  unfold insert256. cbn zeta.
  change (set_nch (ec_n n) (u8_incr (n_nch (ec_n n)))) with (ec_n (set_nch n (u8_incr (n_nch n)))).
  apply ec_setChildN.
Qed.
Lemma ec_copyHeader d n : copyHeader (ec_n d) (ec_n n) = omapo ec_n (copyHeader d n).
Proof. unfold copyHeader. cbn. destruct (_ && _); done. Qed.
Lemma ec_getChild n i : getChild (ec_n n) i = getChild n i.
Proof. reflexivity. Qed.
Lemma ec_getKeyAtIdx n i : getKeyAtIdx (ec_n n) i = getKeyAtIdx n i.
Proof. reflexivity. Qed.
Lemma ec_fill48 l d n : fill48 (ec_n d) (ec_n n) l = omapo ec_n (fill48 d n l).
Proof.
  revert d. induction l as [|i l IH]; intros d; cbn; [done|]. rewrite ec_getKeyAtIdx, omapo_obind.
  apply obind_ext. intros k. rewrite ec_setKeyAtIdx, obind_omapo, omapo_obind. by apply obind_ext.
Qed.
Lemma ec_fill256 l d n : fill256 (ec_n d) (ec_n n) l = omapo ec_n (fill256 d n l).
Proof.
  revert d. induction l as [|i l IH]; intros d; cbn; [done|]. rewrite ec_getKeyAtIdx, omapo_obind.
  apply obind_ext. intros k. destruct (Nat.eqb _ _); [done|]. rewrite ec_getChild, omapo_obind.
  apply obind_ext. intros ch. rewrite ec_setChildN, obind_omapo, omapo_obind. by apply obind_ext.
Qed.
Lemma ec_fill16 l j d n : fill16 (ec_n d) (ec_n n) j l = omapo ec_n (fill16 d n j l).
Proof.
  revert d j. induction l as [|i l IH]; intros d j; cbn; [done|]. rewrite ec_getKeyAtIdx, omapo_obind.
  apply obind_ext. intros k. destruct (Nat.eqb _ _); [done|].
  rewrite ec_setKeyAtIdx, obind_omapo, omapo_obind. apply obind_ext. intros d1.
  rewrite ec_getChild, omapo_obind. apply obind_ext. intros ch.
  rewrite ec_setChildN, obind_omapo, omapo_obind. by apply obind_ext.
Qed.
Lemma ec_fill48from256 l j d n : fill48from256 (ec_n d) (ec_n n) j l = omapo ec_n (fill48from256 d n j l).
Proof.
  revert d j. induction l as [|i l IH]; intros d j; cbn; [done|]. rewrite ec_getChild, omapo_obind.
  apply obind_ext. intros [ch|]; [|done]. rewrite ec_setChildN, obind_omapo, omapo_obind.
  apply obind_ext. intros d1. rewrite ec_setKeyAtIdx, obind_omapo, omapo_obind. by apply obind_ext.
Qed.
Lemma ec_removeSorted n cc : removeSorted (ec_n n) cc = omapo (fun p => (p.1, ec_n p.2)) (removeSorted n cc).
Proof. unfold removeSorted. cbn. destruct (Nat.ltb _ _); done. Qed.
Lemma ec_mergePrefix n ch : mergePrefix (ec_n n) (ec_n ch) = omapo (fun p => (p.1, ec_n p.2)) (mergePrefix n ch).
Proof.
  unfold mergePrefix. cbn. rewrite omapo_obind. apply obind_ext. intros [part prefix].
  rewrite omapo_obind. apply obind_ext. intros [part' prefix']. destruct (Nat.ltb _ _); done.
Qed.
Lemma ec_compact m n slow numCh l :
  compact_loop m (ec_n n) slow numCh l = omapo (fun p => (ec_n p.1.1, p.1.2, p.2)) (compact_loop m n slow numCh l).
Proof.
  revert n slow numCh. induction l as [|i l IH]; intros n slow numCh; cbn; [done|].
  destruct (list_find _ m) as [[? [? [a|]]]|]; [|done|].
  - rewrite ec_setChildN, obind_omapo, omapo_obind. by apply obind_ext.
  - rewrite ec_getChild, omapo_obind. apply obind_ext. intros ch.
    rewrite ec_setChildN, obind_omapo, omapo_obind. by apply obind_ext.
Qed.


(** ** Simulation *)
Lemma msim_updN a f f0 : (forall n, f0 (ec_n n) = omapo ec_n (f n)) -> msim id (updN a f) (updN a f0).
Proof.
  intros Hf. eapply msim_bind; [apply msim_loadN|intros n].
  eapply msim_bind; [apply (msim_lift ec_n); symmetry; apply Hf|intros n']. by apply msim_storeN.
Qed.
Lemma msim_setNodeLeaf a l : msim id (setNodeLeaf a l) (setNodeLeaf a l).
Proof. apply msim_updN. done. Qed.
Lemma msim_setChild a i cc : msim id (setChild a i cc) (setChild a i cc).
Proof. apply msim_updN. intros. apply ec_setChildN. Qed.
Lemma msim_setKV l k v : msim id (setKV l k v) (setKV l k v).
Proof. eapply msim_bind; [apply msim_loadL|intros x]. by apply msim_storeL. Qed.
Lemma msim_allocNode k : msim id (allocNode k) (allocNode k).
Proof. eapply msim_bind; [apply msim_nextId|intros i]. apply msim_liftH. by apply mhsim_allocN. Qed.
Lemma msim_allocLeaf : msim id allocLeaf allocLeaf.
Proof. eapply msim_bind; [apply msim_nextId|intros i]. apply msim_liftH. by apply mhsim_allocL. Qed.
Lemma msim_copyPartial a p : msim id (copyPartial a p) (copyPartial a p).
Proof. apply msim_updN. done. Qed.
Lemma msim_bind_id {A B C} (g : B -> C) (m m0 : TM A) k k0 :
  msim id m m0 -> (forall a, msim g (k a) (k0 a)) -> msim g (bind m k) (bind m0 k0).
Proof. intros Hm Hk. by eapply (msim_bind id). Qed.

Ltac msim_pure :=
  first [reflexivity | apply ec_insertSorted | apply ec_insert48 | apply ec_insert256
        | apply ec_setChildN | apply ec_setKeyAtIdx | apply ec_copyHeader | apply ec_fill48 | apply ec_fill256
        | apply ec_fill16 | apply ec_fill48from256 ].
Ltac msim_leaf :=
  lazymatch goal with
  | |- msim _ nofuel _ => apply msim_nofuel
  | |- msim _ panic _ => apply msim_panic
  | |- msim _ (ret _) _ => apply msim_ret; reflexivity
  | |- msim _ (setNodeLeaf _ _) _ => apply msim_setNodeLeaf
  | |- msim _ (setChild _ _ _) _ => apply msim_setChild
  | |- msim _ (setKV _ _ _) _ => apply msim_setKV
  | |- msim _ (allocNode _) _ => apply msim_allocNode
  | |- msim _ allocLeaf _ => apply msim_allocLeaf
  | |- msim _ (copyPartial _ _) _ => apply msim_copyPartial
  | |- msim _ (writeNode _ _) _ => apply msim_writeNode
  | |- msim _ (writeLeaf _ _) _ => apply msim_writeLeaf
  | |- msim _ (byteAt _ _) _ => apply msim_byteAt
  | |- msim _ nextId _ => apply msim_nextId
  | |- msim _ (storeN _ _) _ => apply msim_storeN; reflexivity
  | |- msim _ (storeL _ _) _ => apply msim_storeL; reflexivity
  | |- msim _ (updN _ _) _ => apply msim_updN; intros; msim_pure
  | |- msim _ (if ?b then _ else _) (if _ then _ else _) => apply (msim_if _ b)
  end.
Ltac msim_step :=
  lazymatch goal with
  | |- msim _ (bind (trackN _) _) _ => apply msim_skip; [apply msim_trackN|]
  | |- msim _ (bind (trackL _) _) _ => apply msim_skip; [apply msim_trackL|]
  | |- msim _ (bind (trackOptL _) _) _ => apply msim_skip; [apply msim_trackOptL|]
  | |- msim _ (bind (trackAllN _) _) _ => apply msim_skip; [apply msim_trackAllN|]
  | |- msim _ (bind (if _ then trackN _ else ret tt) _) _ =>
      apply msim_skip; [match goal with |- msim _ (if ?o then _ else _) (ret tt) => destruct o end;
           [apply msim_trackN | apply msim_ret; reflexivity]|]
  | |- msim _ (bind (match _ with Some _ => trackN _ | None => ret tt end) _) _ =>
      apply msim_skip; [match goal with |- msim _ (match ?o with _ => _ end) (ret tt) => destruct o end;
           [apply msim_trackN | apply msim_ret; reflexivity]|]
  | |- msim _ (bind (loadN _) _) _ => eapply msim_bind; [apply msim_loadN | intros ?]
  | |- msim _ (bind (loadL _) _) _ => eapply msim_bind; [apply msim_loadL | intros ?]
  | |- msim _ (bind getT _) _ => eapply msim_bind; [apply msim_getT | intros ?]
  | |- msim _ (bind getH _) _ => eapply msim_bind; [apply msim_getH | intros ?]
  | |- msim _ (bind _ _) _ => fail
  | |- _ => msim_leaf
  end.


Lemma msim_makeLeaf k (v : V) : msim id (makeLeaf k v) (makeLeaf k v).
Proof. unfold makeLeaf. repeat first [msim_step | apply msim_bind_id; [|intros ?]]. Qed.
Lemma msim_moveLeaf a o : msim id (moveLeaf a o) (emoveLeaf a o).
Proof. destruct o; cbn; repeat first [msim_step | apply msim_bind_id; [|intros ?]]. Qed.

Lemma msim_bind_lift {A B C D} (f : A -> B) (g : C -> D) (o : outcome A) o0 (k : A -> TM C) k0 :
  omapo f o = o0 -> (forall a, msim g (k a) (k0 (f a))) -> msim g (let! x := lift o in k x) (let! x := lift o0 in k0 x).
Proof. intros E Hk. eapply msim_bind; [by apply msim_lift|exact Hk]. Qed.
Lemma msim_bind_lift_id {A C D} (g : C -> D) (o o0 : outcome A) (k : A -> TM C) k0 :
  o = o0 -> (forall a, msim g (k a) (k0 a)) -> msim g (let! x := lift o in k x) (let! x := lift o0 in k0 x).
Proof. intros -> Hk. eapply (msim_bind_lift id); [by destruct o0|exact Hk]. Qed.

Ltac msim_bindstep :=
  lazymatch goal with
  | |- msim _ (bind (lift (removeSorted _ _)) _) _ =>
      eapply (msim_bind_lift (fun p => (p.1, ec_n p.2))); [symmetry; apply ec_removeSorted|]; intros [? ?]; cbn [fst snd]
  | |- msim _ (bind (lift (mergePrefix _ _)) _) _ =>
      eapply (msim_bind_lift (fun p => (p.1, ec_n p.2))); [symmetry; apply ec_mergePrefix|]; intros [? ?]; cbn [fst snd]
  | |- msim _ (bind (lift (compact_loop _ _ _ _ _)) _) _ =>
      eapply (msim_bind_lift (fun p => (ec_n p.1.1, p.1.2, p.2))); [symmetry; apply ec_compact|]; intros [[? ?] ?]; cbn [fst snd]
  | |- msim _ (bind (lift (prefixMismatch _ _ _ _ _)) _) _ =>
      apply msim_bind_lift_id; [symmetry; apply ec_prefixMismatch|intros ?]
  | |- msim _ (bind (lift (minimum _ _ _)) _) _ =>
      apply msim_bind_lift_id; [symmetry; apply ec_minimum|intros ?]
  | |- msim _ (bind (lift _) _) _ => apply msim_bind_lift_id; [reflexivity|intros ?]
  | |- msim _ (bind _ _) (bind _ _) => apply msim_bind_id; [|intros ?]
  | |- msim _ (lift _) (lift _) => apply msim_lift; first [reflexivity | by destruct (findChild _ _)]
  | |- msim _ (match ?x with (_, _) => _ end) _ => destruct x; cbn [fst snd]
  | |- msim _ (match ?x with Some _ => _ | None => _ end) _ =>
      repeat match goal with |- context[n_leaf (ec_n ?n)] => change (n_leaf (ec_n n)) with (n_leaf n) end;
      destruct x
  | |- msim _ (match ?x with RL _ => _ | RN _ => _ end) _ => destruct x
  end.
Ltac mgo_with tac := repeat (cbn beta iota zeta;
  lazymatch goal with
  | |- msim _ (makeLeaf _ _) _ => apply msim_makeLeaf
  | |- msim _ (moveLeaf _ _) _ => apply msim_moveLeaf
  | |- msim _ (bind _ _) _ => first [msim_step | msim_bindstep]
  | |- _ => first [msim_step | tac | msim_bindstep]
  end).
Ltac mgo := mgo_with fail.

Lemma msim_addChild256 a cc ch : msim id (addChild256 a cc ch) (addChild256 a cc ch).
Proof. unfold addChild256. mgo. Qed.
Lemma msim_addChild48 a cc ch : msim id (addChild48 a cc ch) (eaddChild48 a cc ch).
Proof. unfold addChild48, eaddChild48. mgo_with ltac:(apply msim_addChild256). Qed.
Lemma msim_addChild16 a cc ch : msim id (addChild16 a cc ch) (eaddChild16 a cc ch).
Proof. unfold addChild16, eaddChild16. mgo_with ltac:(apply msim_addChild48). Qed.
Lemma msim_addChild4 a cc ch : msim id (addChild4 a cc ch) (eaddChild4 a cc ch).
Proof. unfold addChild4, eaddChild4. mgo_with ltac:(apply msim_addChild16). Qed.
Lemma msim_addChild a cc ch : msim id (addChild a cc ch) (eaddChild a cc ch).
Proof.
  unfold addChild, eaddChild. mgo. cbn. destruct (n_kind _).
  - apply msim_addChild4.
  - apply msim_addChild16.
  - apply msim_addChild48.
  - apply msim_addChild256.
Qed.


Lemma msim_removeChild4 a cc : msim id (removeChild4 a cc) (eremoveChild4 a cc).
Proof. unfold removeChild4, eremoveChild4. mgo. Qed.
Lemma msim_removeChild16 a cc : msim id (removeChild16 a cc) (eremoveChild16 a cc).
Proof. unfold removeChild16, eremoveChild16. mgo. Qed.
Lemma msim_removeChild48 a cc : msim id (removeChild48 a cc) (eremoveChild48 a cc).
Proof.
  unfold removeChild48, eremoveChild48. mgo.
Qed.
Lemma msim_removeChild256 a cc : msim id (removeChild256 a cc) (eremoveChild256 a cc).
Proof. unfold removeChild256, eremoveChild256. mgo. Qed.
Lemma msim_removeChild a cc : msim id (removeChild a cc) (eremoveChild a cc).
Proof.
  unfold removeChild, eremoveChild. mgo. cbn. destruct (n_kind _).
  - apply msim_removeChild4.
  - apply msim_removeChild16.
  - apply msim_removeChild48.
  - apply msim_removeChild256.
Qed.

Lemma msim_insert fuel :
  (forall node key (v : V) depth, msim id (recursiveInsert fuel node key v depth) (erecursiveInsert fuel node key v depth)) /\
  (forall node key (v : V) depth, msim id (insertInner fuel node key v depth) (einsertInner fuel node key v depth)).
Proof.
  induction fuel as [|fuel [IH1 IH2]]; split; intros; cbn [recursiveInsert erecursiveInsert insertInner einsertInner];
    try apply msim_nofuel.
  - mgo_with ltac:(first [apply IH1 | apply IH2 | apply msim_addChild]).
  - mgo_with ltac:(first [apply IH1 | apply IH2 | apply msim_addChild]).
Qed.

Lemma msim_delete fuel : forall node key depth,
  msim id (recursiveDelete fuel node key depth) (erecursiveDelete fuel node key depth).
Proof.
  induction fuel as [|fuel IH]; intros; cbn [recursiveDelete erecursiveDelete]; [apply msim_nofuel|].
  mgo_with ltac:(first [apply IH | apply msim_removeChild]).
Qed.
Lemma msim_installEmptyRoot : msim id installEmptyRoot installEmptyRoot.
Proof.
  intros s [L1 L2]. split; [by repeat split|]. right.
  unfold installEmptyRoot, bind, getT, liftH, hallocL, hallocN, putT, ec, ec_h, set_nodes, set_leaves; cbn.
  by rewrite !fmap_insert.
Qed.
Lemma msim_txnInsert key (v : V) : msim id (txnInsert key v) (etxnInsert key v).
Proof.
  unfold txnInsert, etxnInsert. cbn zeta. eapply msim_bind; [apply msim_getT|intros t].
  apply msim_bind_id; [apply msim_insert|intros [[[r v0] b0] b]].
  apply (msim_putT_of (fun t => set_t_root (if b then t else
      set_t_tsize (set_t_size t (u64_incr (t_size t))) (u64_incr (t_tsize t))) r)
    (fun t => set_t_root (if b then t else
      set_t_tsize (set_t_size t (u64_incr (t_size t))) (u64_incr (t_tsize t))) r)); [by destruct b|].
  by apply msim_ret.
Qed.
Lemma msim_txnDelete key : msim id (txnDelete key) (etxnDelete key).
Proof.
  unfold txnDelete, etxnDelete. cbn zeta. eapply msim_bind; [apply msim_getT|intros t].
  apply msim_bind_id; [apply msim_delete|intros [[nr l] b]].
  apply msim_bind_id.
  { destruct nr as [r|]; [|apply msim_installEmptyRoot].
    by apply (msim_putT_last (fun t => set_t_root t r) (fun t => set_t_root t r)). }
  intros _. destruct l as [x|]; [|by apply msim_ret].
  eapply msim_bind; [apply msim_getT|intros t']. apply msim_skip; [apply msim_trackN|].
  apply (msim_putT_of (fun t => set_t_tsize (set_t_size t (u64_sub (t_size t) 1)) (u64_sub (t_tsize t) 1))
          (fun t => set_t_tsize (set_t_size t (u64_sub (t_size t) 1)) (u64_sub (t_tsize t) 1))); [done|].
  destruct x as [|la]; [by apply msim_ret|]. eapply msim_bind; [apply msim_loadL|intros lf]. by apply msim_ret.
Qed.

End Mark.
