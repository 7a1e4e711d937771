(** Erasure of the watch channels: every operation, run on a heap with channels and with or without
    tracking, acts on the rest of the state exactly like a channel-free version of itself.  The
    channel-free programs (prefix [e]) are proof devices; all theorems are about the programs of the
    model. *)
From Verif Require Export IterOps.

(** ** Erasure *)
Section Er.
Context {V : Type} `{GoZero V}.
Notation HM := (M (heap V)).
Notation TM := (M (st V)).

Definition er_n (n : inode) : inode := set_ch n None.
Definition er_l (l : lnode V) : lnode V := setl_ch l None.
Definition er_h (h : heap V) : heap V :=
  mkH (er_n <$> h_nodes h) (er_l <$> h_leaves h) (h_next h) 0 [].
Definition er_t (t : txn) : txn := mkTx (t_root t) (t_tsize t) (t_max t) (t_size t) (t_oldmax t) false [].
Definition er (s : st V) : st V := mkS (er_h (s_h s)) (er_t (s_t s)).

Definition omapo {A B} (f : A -> B) (o : outcome A) : outcome B :=
  match o with Ok a => Ok (f a) | Panic => Panic | NoFuel => NoFuel end.

(** [m] behaves like [m0] modulo channels; results are related by [f]. *)
Definition sim {A B} (f : A -> B) (m : TM A) (m0 : TM B) : Prop :=
  forall s, (omapo f (m s).1, er (m s).2) = m0 (er s).
Definition hsim {A B} (f : A -> B) (m : HM A) (m0 : HM B) : Prop :=
  forall h, (omapo f (m h).1, er_h (m h).2) = m0 (er_h h).

Lemma sim_ret {A B} (f : A -> B) a b : f a = b -> sim f (ret a) (ret b).
Proof. intros <- s. reflexivity. Qed.
Lemma sim_bind {A B A' B'} (f : A -> A') (g : B -> B') m m0 k k0 :
  sim f m m0 -> (forall a, sim g (k a) (k0 (f a))) -> sim g (bind m k) (bind m0 k0).
Proof.
  intros Hm Hk s. unfold bind. rewrite <- Hm. destruct (m s) as [[a| |] s']; cbn; [apply Hk|done|done].
Qed.
Lemma sim_panic {A B} (f : A -> B) : sim f panic panic.
Proof. intros s. reflexivity. Qed.
Lemma sim_nofuel {A B} (f : A -> B) : sim f nofuel nofuel.
Proof. intros s. reflexivity. Qed.
Lemma sim_lift {A B} (f : A -> B) o o0 : omapo f o = o0 -> sim f (lift o) (lift o0).
Proof. intros <- s. reflexivity. Qed.
Lemma sim_skip {A B} (g : A -> B) m k k0 :
  sim id m (ret tt) -> sim g k k0 -> sim g (m ;;; k) k0.
Proof.
  intros Hm Hk s. unfold bind. specialize (Hm s). destruct (m s) as [[a| |] s'] eqn:E; cbn in *.
  - unfold id, ret in Hm. inversion Hm. rewrite Hk. congruence.
  - inversion Hm.
  - inversion Hm.
Qed.
Lemma sim_if {A B} (f : A -> B) (b : bool) m m0 k k0 :
  sim f m m0 -> sim f k k0 -> sim f (if b then m else k) (if b then m0 else k0).
Proof. destruct b; auto. Qed.

Lemma hsim_ret {A B} (f : A -> B) a b : f a = b -> hsim f (ret a) (ret b).
Proof. intros <- s. reflexivity. Qed.
Lemma hsim_bind {A B A' B'} (f : A -> A') (g : B -> B') m m0 k k0 :
  hsim f m m0 -> (forall a, hsim g (k a) (k0 (f a))) -> hsim g (bind m k) (bind m0 k0).
Proof.
  intros Hm Hk s. unfold bind. rewrite <- Hm. destruct (m s) as [[a| |] s']; cbn; [apply Hk|done|done].
Qed.
Lemma hsim_skip {A B C} (f : C -> unit) (g : A -> B) (m : HM C) k k0 :
  hsim f m (ret tt) -> (forall c, hsim g (k c) k0) -> hsim g (bind m k) k0.
Proof.
  intros Hm Hk s. unfold bind. specialize (Hm s). destruct (m s) as [[a| |] s'] eqn:E; cbn in *.
  - unfold id, ret in Hm. inversion Hm. rewrite Hk. congruence.
  - inversion Hm.
  - inversion Hm.
Qed.
Lemma sim_liftH {A B} (f : A -> B) m m0 : hsim f m m0 -> sim f (liftH m) (liftH m0).
Proof.
  intros Hm s. unfold liftH, er. cbn. rewrite <- Hm. destruct (m (s_h s)) as [o h']. reflexivity.
Qed.

(** ** Primitives *)
Lemma er_lookup h a : h_nodes (er_h h) !! a = er_n <$> h_nodes h !! a.
Proof. apply lookup_fmap. Qed.
Lemma er_lookupL h a : h_leaves (er_h h) !! a = er_l <$> h_leaves h !! a.
Proof. apply lookup_fmap. Qed.

Lemma hsim_loadN a : hsim er_n (hloadN a) (hloadN a).
Proof. intros h. unfold hloadN. rewrite er_lookup. destruct (h_nodes h !! a); reflexivity. Qed.
Lemma hsim_loadL a : hsim er_l (hloadL a) (hloadL a).
Proof. intros h. unfold hloadL. rewrite er_lookupL. destruct (h_leaves h !! a); reflexivity. Qed.
Lemma hsim_storeN a n n0 : er_n n = n0 -> hsim id (hstoreN a n) (hstoreN a n0).
Proof. intros <- h. unfold hstoreN, er_h, set_nodes. cbn. rewrite fmap_insert. reflexivity. Qed.
Lemma hsim_storeL a n n0 : er_l n = n0 -> hsim id (hstoreL a n) (hstoreL a n0).
Proof. intros <- h. unfold hstoreL, er_h, set_leaves. cbn. rewrite fmap_insert. reflexivity. Qed.
Lemma hsim_allocN n n0 : er_n n = n0 -> hsim id (hallocN n) (hallocN n0).
Proof. intros <- h. unfold hallocN, er_h, set_nodes. cbn. rewrite fmap_insert. reflexivity. Qed.
Lemma hsim_allocL n n0 : er_l n = n0 -> hsim id (hallocL n) (hallocL n0).
Proof. intros <- h. unfold hallocL, er_h, set_leaves. cbn. rewrite fmap_insert. reflexivity. Qed.

Lemma sim_loadN a : sim er_n (loadN a) (loadN a).
Proof. apply sim_liftH, hsim_loadN. Qed.
Lemma sim_loadL a : sim er_l (loadL a) (loadL a).
Proof. apply sim_liftH, hsim_loadL. Qed.
Lemma sim_storeN a n n0 : er_n n = n0 -> sim id (storeN a n) (storeN a n0).
Proof. intros. by apply sim_liftH, hsim_storeN. Qed.
Lemma sim_storeL a n n0 : er_l n = n0 -> sim id (storeL a n) (storeL a n0).
Proof. intros. by apply sim_liftH, hsim_storeL. Qed.
Lemma sim_getT : sim er_t getT getT.
Proof. intros s. reflexivity. Qed.
Lemma sim_putT t t0 : er_t t = t0 -> sim id (putT t) (putT t0).
Proof. intros <- s. reflexivity. Qed.
Lemma sim_nextId : sim id nextId nextId.
Proof. intros s. reflexivity. Qed.
Lemma sim_getH : sim er_h getH getH.
Proof. intros s. reflexivity. Qed.
Lemma sim_byteAt k i : sim id (byteAt k i) (byteAt k i).
Proof. intros s. unfold byteAt. destruct (k !! i); reflexivity. Qed.

Lemma fmap_insert_er (m : gmap nat inode) a n n' :
  m !! a = Some n -> er_n n' = er_n n -> er_n <$> <[a:=n']> m = er_n <$> m.
Proof.
  intros Hn E. rewrite fmap_insert, E. apply insert_id. rewrite lookup_fmap, Hn. done.
Qed.
Lemma fmap_insert_erL (m : gmap nat (lnode V)) a n n' :
  m !! a = Some n -> er_l n' = er_l n -> er_l <$> <[a:=n']> m = er_l <$> m.
Proof.
  intros Hn E. rewrite fmap_insert, E. apply insert_id. rewrite lookup_fmap, Hn. done.
Qed.

(** The effect of getMutateCh and of tracking is invisible. *)
Lemma getMutateChN_ok h a n : h_nodes h !! a = Some n ->
  exists c h', getMutateChN a h = (Ok c, h') /\ er_h h' = er_h h /\
    h_nodes h' !! a = Some (set_ch n (Some c)).
Proof.
  intros Hn. unfold getMutateChN, bind, hloadN. rewrite Hn. destruct (n_ch n) as [c|] eqn:E.
  - exists c, h. split_and!; try done. rewrite Hn. f_equal. destruct n; cbn in *; unfold set_ch; cbn; congruence.
  - eexists _, _. split; [reflexivity|]. split.
    + unfold er_h; cbn. by erewrite fmap_insert_er.
    + cbn. by rewrite lookup_insert.
Qed.
Lemma getMutateChL_ok h a n : h_leaves h !! a = Some n ->
  exists c h', getMutateChL a h = (Ok c, h') /\ er_h h' = er_h h /\
    h_leaves h' !! a = Some (setl_ch n (Some c)).
Proof.
  intros Hn. unfold getMutateChL, bind, hloadL. rewrite Hn. destruct (l_ch n) as [c|] eqn:E.
  - exists c, h. split_and!; try done. rewrite Hn. f_equal. destruct n; cbn in *; unfold setl_ch; cbn; congruence.
  - eexists _, _. split; [reflexivity|]. split.
    + unfold er_h; cbn. by erewrite fmap_insert_erL.
    + cbn. by rewrite lookup_insert.
Qed.

(** Exact effect of tracking. *)
Definition trackedN (h : heap V) (a : addr) (n : inode) : heap V :=
  match n_ch n with
  | Some _ => mkH (<[a:=set_ch n (Some (h_nextch h))]> (h_nodes h)) (h_leaves h) (h_next h) (S (h_nextch h)) (h_closed h)
  | None => mkH (<[a:=set_ch n (Some (S (h_nextch h)))]> (h_nodes h)) (h_leaves h) (h_next h) (S (S (h_nextch h))) (h_closed h)
  end.
Definition trackedL (h : heap V) (a : addr) (n : lnode V) : heap V :=
  match l_ch n with
  | Some _ => mkH (h_nodes h) (<[a:=setl_ch n (Some (h_nextch h))]> (h_leaves h)) (h_next h) (S (h_nextch h)) (h_closed h)
  | None => mkH (h_nodes h) (<[a:=setl_ch n (Some (S (h_nextch h)))]> (h_leaves h)) (h_next h) (S (S (h_nextch h))) (h_closed h)
  end.
Lemma trackN_off (s : st V) (a : addr) : t_track (s_t s) = false -> trackN a s = (Ok tt, s).
Proof. intros E. unfold trackN, bind, getT. cbn. by rewrite E. Qed.
Lemma trackL_off (s : st V) (a : addr) : t_track (s_t s) = false -> trackL a s = (Ok tt, s).
Proof. intros E. unfold trackL, bind, getT. cbn. by rewrite E. Qed.
Lemma trackN_none (s : st V) (a : addr) : h_nodes (s_h s) !! a = None -> trackN a s = (Ok tt, s).
Proof. intros E. unfold trackN, bind, getT. cbn. by rewrite E, andb_false_r. Qed.
Lemma trackL_none (s : st V) (a : addr) : h_leaves (s_h s) !! a = None -> trackL a s = (Ok tt, s).
Proof. intros E. unfold trackL, bind, getT. cbn. by rewrite E, andb_false_r. Qed.
Lemma liftH_ok {A} (m : HM A) (s : st V) o h : m (s_h s) = (o, h) -> liftH m s = (o, mkS h (s_t s)).
Proof. intros E. unfold liftH. by rewrite E. Qed.
Lemma getMutateChN_eq (h : heap V) a n : h_nodes h !! a = Some n ->
  getMutateChN a h = (Ok (default (h_nextch h) (n_ch n)),
    match n_ch n with
    | Some _ => h
    | None => mkH (<[a:=set_ch n (Some (h_nextch h))]> (h_nodes h)) (h_leaves h) (h_next h) (S (h_nextch h)) (h_closed h)
    end).
Proof.
  intros Hn. unfold getMutateChN. erewrite bind_ok; [|unfold hloadN; rewrite Hn; reflexivity].
  destruct (n_ch n); reflexivity.
Qed.
Lemma getMutateChL_eq (h : heap V) a n : h_leaves h !! a = Some n ->
  getMutateChL a h = (Ok (default (h_nextch h) (l_ch n)),
    match l_ch n with
    | Some _ => h
    | None => mkH (h_nodes h) (<[a:=setl_ch n (Some (h_nextch h))]> (h_leaves h)) (h_next h) (S (h_nextch h)) (h_closed h)
    end).
Proof.
  intros Hn. unfold getMutateChL. erewrite bind_ok; [|unfold hloadL; rewrite Hn; reflexivity].
  destruct (l_ch n); reflexivity.
Qed.
Lemma setMutateChN_eq (h : heap V) a n c : h_nodes h !! a = Some n ->
  setMutateChN a c h = (Ok tt, set_nodes h (<[a:=set_ch n (Some c)]> (h_nodes h))).
Proof.
  intros Hn. unfold setMutateChN. erewrite bind_ok; [|unfold hloadN; rewrite Hn; reflexivity]. reflexivity.
Qed.
Lemma setMutateChL_eq (h : heap V) a n c : h_leaves h !! a = Some n ->
  setMutateChL a c h = (Ok tt, set_leaves h (<[a:=setl_ch n (Some c)]> (h_leaves h))).
Proof.
  intros Hn. unfold setMutateChL. erewrite bind_ok; [|unfold hloadL; rewrite Hn; reflexivity]. reflexivity.
Qed.
Lemma trackN_on (s : st V) (a : addr) n : t_track (s_t s) = true -> h_nodes (s_h s) !! a = Some n ->
  trackN a s = (Ok tt, mkS (trackedN (s_h s) a n)
                           (set_t_chs (s_t s) (t_chs (s_t s) ++ [default (h_nextch (s_h s)) (n_ch n)]))).
Proof.
  intros E Hn. unfold trackN. erewrite bind_ok; [|reflexivity]. erewrite bind_ok; [|reflexivity].
  rewrite E, Hn. cbn.
  erewrite bind_ok; [|eapply liftH_ok, getMutateChN_eq; done].
  erewrite bind_ok; [|reflexivity]. erewrite bind_ok; [|reflexivity]. unfold trackedN.
  destruct (n_ch n); (erewrite liftH_ok; [|eapply setMutateChN_eq; cbn; rewrite ?lookup_insert; done]).
  - reflexivity.
  - unfold set_nodes. cbn. by rewrite insert_insert.
Qed.
Lemma trackL_on (s : st V) (a : addr) n : t_track (s_t s) = true -> h_leaves (s_h s) !! a = Some n ->
  trackL a s = (Ok tt, mkS (trackedL (s_h s) a n)
                           (set_t_chs (s_t s) (t_chs (s_t s) ++ [default (h_nextch (s_h s)) (l_ch n)]))).
Proof.
  intros E Hn. unfold trackL. erewrite bind_ok; [|reflexivity]. erewrite bind_ok; [|reflexivity].
  rewrite E, Hn. cbn.
  erewrite bind_ok; [|eapply liftH_ok, getMutateChL_eq; done].
  erewrite bind_ok; [|reflexivity]. erewrite bind_ok; [|reflexivity]. unfold trackedL.
  destruct (l_ch n); (erewrite liftH_ok; [|eapply setMutateChL_eq; cbn; rewrite ?lookup_insert; done]).
  - reflexivity.
  - unfold set_leaves. cbn. by rewrite insert_insert.
Qed.

Lemma sim_trackN a : sim id (trackN a) (ret tt).
Proof.
  intros s. destruct (t_track (s_t s)) eqn:Et; [|by rewrite trackN_off].
  destruct (h_nodes (s_h s) !! a) as [n|] eqn:En; [|by rewrite trackN_none].
  erewrite trackN_on by done. unfold trackedN. unfold ret. cbn. unfold er. cbn. f_equal. f_equal.
  destruct (n_ch n); unfold er_h; cbn; by erewrite fmap_insert_er.
Qed.
Lemma sim_trackL a : sim id (trackL a) (ret tt).
Proof.
  intros s. destruct (t_track (s_t s)) eqn:Et; [|by rewrite trackL_off].
  destruct (h_leaves (s_h s) !! a) as [n|] eqn:En; [|by rewrite trackL_none].
  erewrite trackL_on by done. unfold trackedL. unfold ret. cbn. unfold er. cbn. f_equal. f_equal.
  destruct (l_ch n); unfold er_h; cbn; by erewrite fmap_insert_erL.
Qed.
Lemma sim_trackOptL o : sim id (trackOptL o) (ret tt).
Proof. destruct o; cbn; [apply sim_trackL|by apply sim_ret]. Qed.
Lemma sim_trackAllN l : sim id (trackAllN l) (ret tt).
Proof. induction l; cbn; [by apply sim_ret|]. apply sim_skip; [apply sim_trackN|done]. Qed.

(** ** Channel-free programs *)

Definition ecloneN (a : addr) : HM addr :=
  let! n := hloadN a in hallocN (set_partial n (clonePartial (n_partial n))).

Definition ewriteNode (a : addr) : TM addr := fun s =>
  match h_nodes (s_h s) !! a with
  | None => (Panic, s)
  | Some n =>
      if Nat.ltb (t_oldmax (s_t s)) (n_id n) then (Ok a, s)
      else (Ok (h_next (s_h s)),
            mkS (mkH (<[h_next (s_h s) := set_id (set_partial n (clonePartial (n_partial n))) (S (t_max (s_t s)))]>
                        (h_nodes (s_h s)))
                     (h_leaves (s_h s)) (S (h_next (s_h s))) (h_nextch (s_h s)) (h_closed (s_h s)))
                (set_t_max (s_t s) (S (t_max (s_t s)))))
  end.
Definition ewriteLeaf (a : addr) : TM addr := fun s =>
  match h_leaves (s_h s) !! a with
  | None => (Panic, s)
  | Some l =>
      if Nat.ltb (t_oldmax (s_t s)) (l_id l) then (Ok a, s)
      else (Ok (h_next (s_h s)),
            mkS (mkH (h_nodes (s_h s))
                     (<[h_next (s_h s) := setl_id l (S (t_max (s_t s)))]> (h_leaves (s_h s)))
                     (S (h_next (s_h s))) (h_nextch (s_h s)) (h_closed (s_h s)))
                (set_t_max (s_t s) (S (t_max (s_t s)))))
  end.

Lemma hsim_cloneN a kw : hsim id (cloneN a kw) (ecloneN a).
Proof.
  intros h. unfold cloneN, ecloneN. destruct (h_nodes h !! a) as [n|] eqn:Hn.
  - erewrite (bind_ok (hloadN a) _ (er_h h)); [|unfold hloadN; rewrite er_lookup, Hn; reflexivity].
    destruct kw.
    + erewrite bind_ok; [|erewrite bind_ok; [|by eapply getMutateChN_eq]; reflexivity].
      destruct (n_ch n); cbn.
      * erewrite bind_ok; [|unfold hloadN; by rewrite Hn]. unfold er_h, hallocN; cbn. by rewrite fmap_insert.
      * erewrite bind_ok; [|unfold hloadN; cbn; by rewrite lookup_insert]. unfold er_h, hallocN; cbn.
        rewrite fmap_insert. erewrite fmap_insert_er; [|exact Hn|done]. reflexivity.
    + erewrite bind_ok; [|reflexivity].
      erewrite bind_ok; [|unfold hloadN; by rewrite Hn]. unfold er_h, hallocN; cbn. by rewrite fmap_insert.
  - rewrite (bind_panic _ _ (er_h h) (er_h h)); [|unfold hloadN; by rewrite er_lookup, Hn].
    destruct kw; [rewrite (bind_panic _ _ h h)|erewrite bind_ok, bind_panic]; try done.
    all: unfold getMutateChN, bind, hloadN; by rewrite Hn.
Qed.
Lemma hsim_cloneL a kw : hsim id (cloneL a kw) (let! n := hloadL a in hallocL n).
Proof.
  intros h. unfold cloneL. destruct (h_leaves h !! a) as [n|] eqn:Hn.
  - erewrite (bind_ok (hloadL a) _ (er_h h)); [|unfold hloadL; rewrite er_lookupL, Hn; reflexivity].
    destruct kw.
    + erewrite bind_ok; [|erewrite bind_ok; [|by eapply getMutateChL_eq]; reflexivity].
      destruct (l_ch n); cbn.
      * erewrite bind_ok; [|unfold hloadL; by rewrite Hn]. unfold er_h, hallocL; cbn. by rewrite fmap_insert.
      * erewrite bind_ok; [|unfold hloadL; cbn; by rewrite lookup_insert]. unfold er_h, hallocL; cbn.
        rewrite fmap_insert. erewrite fmap_insert_erL; [|exact Hn|done]. reflexivity.
    + erewrite bind_ok; [|reflexivity].
      erewrite bind_ok; [|unfold hloadL; by rewrite Hn]. unfold er_h, hallocL; cbn. by rewrite fmap_insert.
  - rewrite (bind_panic _ _ (er_h h) (er_h h)); [|unfold hloadL; by rewrite er_lookupL, Hn].
    destruct kw; [rewrite (bind_panic _ _ h h)|erewrite bind_ok, bind_panic]; try done.
    all: unfold getMutateChL, bind, hloadL; by rewrite Hn.
Qed.

Lemma sim_eq {A B} (f : A -> B) m m0 m1 : sim f m m0 -> (forall s, m0 s = m1 s) -> sim f m m1.
Proof. intros Hs E s. by rewrite Hs. Qed.

Lemma sim_writeNode a b : sim id (writeNode a b) (ewriteNode a).
Proof.
  set (m1 := let! n := loadN a in
             let! t := getT in
             if Nat.ltb (t_oldmax t) (n_id n) then ret a
             else let! a' := liftH (ecloneN a) in let! i := nextId in
                  let! n' := loadN a' in storeN a' (set_id n' i) ;;; ret a').
  apply (sim_eq _ _ m1).
  - unfold writeNode.
    assert (Hrest : sim id
      (let! n := loadN a in
       let! t := getT in
       if Nat.ltb (t_oldmax t) (n_id n) then ret a
       else let! a' := liftH (cloneN a (negb b)) in let! i := nextId in
            let! n' := loadN a' in storeN a' (set_id n' i) ;;; ret a') m1).
    { eapply sim_bind; [apply sim_loadN|intros n]. eapply sim_bind; [apply sim_getT|intros t].
      apply sim_if; [by apply sim_ret|].
      eapply sim_bind; [apply sim_liftH, hsim_cloneN|intros a']. eapply sim_bind; [apply sim_nextId|intros i].
      eapply sim_bind; [apply sim_loadN|intros n']. eapply sim_bind; [by apply sim_storeN|intros _]. by apply sim_ret. }
    destruct b; [|apply sim_skip; [by apply sim_ret|done]].
    apply (sim_eq _ _ ((loadN a ;;; ret tt) ;;; m1)).
    + eapply (sim_bind id); [|intros _; exact Hrest].
      apply sim_skip; [apply sim_trackN|]. eapply sim_bind; [apply sim_loadN|intros n; apply sim_trackOptL].
    + intros s. unfold m1, bind, loadN, liftH, hloadN. by destruct (h_nodes (s_h s) !! a) eqn:E; cbn; rewrite ?E.
  - intros s. unfold m1, ewriteNode. destruct (h_nodes (s_h s) !! a) as [n|] eqn:E.
    + erewrite bind_ok; [|eapply liftH_ok; unfold hloadN; by rewrite E].
      erewrite bind_ok; [|reflexivity]. cbn. destruct (Nat.ltb _ _); [by destruct s|].
      erewrite bind_ok; [|eapply liftH_ok; unfold ecloneN; erewrite bind_ok; [|unfold hloadN; cbn; by rewrite E]; reflexivity].
      erewrite bind_ok; [|reflexivity].
      erewrite bind_ok; [|eapply liftH_ok; unfold hloadN; cbn; by rewrite lookup_insert].
      unfold storeN, bind, liftH, hstoreN, set_nodes; cbn. by rewrite insert_insert.
    + unfold bind, loadN, liftH, hloadN. rewrite E. by destruct s.
Qed.

Lemma sim_writeLeaf a b : sim id (writeLeaf a b) (ewriteLeaf a).
Proof.
  set (m1 := let! n := loadL (V:=V) a in
             let! t := getT in
             if Nat.ltb (t_oldmax t) (l_id n) then ret a
             else let! a' := liftH (let! n := hloadL a in hallocL n) in let! i := nextId in
                  let! n' := loadL a' in storeL a' (setl_id n' i) ;;; ret a').
  apply (sim_eq _ _ m1).
  - unfold writeLeaf. apply sim_skip.
    { destruct b; [apply sim_trackL|by apply sim_ret]. }
    eapply sim_bind; [apply sim_loadL|intros n]. eapply sim_bind; [apply sim_getT|intros t].
    apply sim_if; [by apply sim_ret|].
    eapply sim_bind; [apply sim_liftH, hsim_cloneL|intros a']. eapply sim_bind; [apply sim_nextId|intros i].
    eapply sim_bind; [apply sim_loadL|intros n']. eapply sim_bind; [by apply sim_storeL|intros _]. by apply sim_ret.
  - intros s. unfold m1, ewriteLeaf. destruct (h_leaves (s_h s) !! a) as [n|] eqn:E.
    + erewrite bind_ok; [|eapply liftH_ok; unfold hloadL; by rewrite E].
      erewrite bind_ok; [|reflexivity]. cbn. destruct (Nat.ltb _ _); [by destruct s|].
      erewrite bind_ok; [|eapply liftH_ok; erewrite bind_ok; [|unfold hloadL; cbn; by rewrite E]; reflexivity].
      erewrite bind_ok; [|reflexivity].
      erewrite bind_ok; [|eapply liftH_ok; unfold hloadL; cbn; by rewrite lookup_insert].
      unfold storeL, bind, liftH, hstoreL, set_leaves; cbn. by rewrite insert_insert.
    + unfold bind, loadL, liftH, hloadL. rewrite E. by destruct s.
Qed.

(** ** Readers do not see channels *)
Lemma er_minimum fuel h o : minimum fuel (er_h h) o = minimum fuel h o.
Proof.
  revert o. induction fuel as [|fuel IH]; intros o; cbn; [done|]. destruct o as [a|]; [|done].
  rewrite lookup_fmap. destruct (h_nodes h !! a) as [n|]; cbn; [|done].
  change (isLeafN (er_n n)) with (isLeafN n). destruct (isLeafN n); [done|]. destruct (n_leaf n); [done|].
  change (minChild (er_n n)) with (minChild n). destruct (minChild n) as [[c|]| |]; cbn; [apply IH|done..].
Qed.
Lemma er_maximum fuel h o : maximum fuel (er_h h) o = maximum fuel h o.
Proof.
  revert o. induction fuel as [|fuel IH]; intros o; cbn; [done|]. destruct o as [a|]; [|done].
  rewrite lookup_fmap. destruct (h_nodes h !! a) as [n|]; cbn; [|done].
  change (isLeafN (er_n n)) with (isLeafN n). destruct (isLeafN n); [done|].
  change (maxChild (er_n n)) with (maxChild n). destruct (maxChild n) as [[c|]| |]; cbn; [apply IH|done..].
Qed.
Lemma er_prefixMismatch h a n key depth :
  prefixMismatch (er_h h) a (er_n n) key depth = prefixMismatch h a n key depth.
Proof.
  unfold prefixMismatch. cbn. destruct (cmp_loop _ _ _ _ _ _); cbn; [|done..].
  destruct (Nat.ltb _ _); [done|]. destruct (Nat.ltb _ _); [|done].
  change (walk_fuel (er_h h)) with (walk_fuel h). rewrite er_minimum. destruct (minimum _ _ _) as [[la|]| |]; cbn; [|done..].
  rewrite lookup_fmap. destruct (h_leaves h !! la); done.
Qed.

(** ** Node routines commute with erasure *)
Lemma er_setKeyAtIdx n i k : setKeyAtIdx (er_n n) i k = omapo er_n (setKeyAtIdx n i k).
Proof. unfold setKeyAtIdx. cbn. destruct (n_kind n), (Nat.ltb i (length (n_keys n))); done. Qed.
Lemma er_setChildN n i k : setChildN (er_n n) i k = omapo er_n (setChildN n i k).
Proof. unfold setChildN. cbn. destruct (Nat.ltb _ _); done. Qed.
Lemma obind_omapo {A B C} (f : A -> B) (o : outcome A) (k : B -> outcome C) :
  obind (omapo f o) k = obind o (fun a => k (f a)).
Proof. destruct o; done. Qed.
Lemma omapo_obind {A B C} (f : B -> C) (o : outcome A) (k : A -> outcome B) :
  omapo f (obind o k) = obind o (fun a => omapo f (k a)).
Proof. destruct o; done. Qed.
Lemma obind_ext {A B} (o : outcome A) (k k' : A -> outcome B) : (forall a, k a = k' a) -> obind o k = obind o k'.
Proof. intros E. destruct o; cbn; auto. Qed.
Lemma er_insertSorted n c ch : insertSorted (er_n n) c ch = omapo er_n (insertSorted n c ch).
Proof.
  unfold insertSorted. cbn zeta. rewrite omapo_obind.
  match goal with |- obind (setKeyAtIdx (set_children (set_keys (er_n n) ?k) ?cc) ?i ?x) _ = _ =>
    change (setKeyAtIdx (set_children (set_keys (er_n n) k) cc) i x)
      with (setKeyAtIdx (er_n (set_children (set_keys n k) cc)) i x) end.
  rewrite er_setKeyAtIdx, obind_omapo. apply obind_ext. intros n1.
  rewrite er_setChildN, obind_omapo, omapo_obind. apply obind_ext. done.
Qed.
Lemma er_insert48 n c ch : insert48 (er_n n) c ch = omapo er_n (insert48 n c ch).
Proof.
  unfold insert48. rewrite omapo_obind. apply obind_ext. intros pos.
  rewrite er_setChildN, obind_omapo, omapo_obind. apply obind_ext. intros n1.
  rewrite er_setKeyAtIdx, obind_omapo, omapo_obind. apply obind_ext. done.
Qed.
Lemma er_insert256 n c ch : insert256 (er_n n) c ch = omapo er_n (insert256 n c ch).
Proof.
  unfold insert256. cbn zeta.
  change (set_nch (er_n n) (u8_incr (n_nch (er_n n)))) with (er_n (set_nch n (u8_incr (n_nch n)))).
  apply er_setChildN.
Qed.
Lemma er_copyHeader d n : copyHeader (er_n d) (er_n n) = omapo er_n (copyHeader d n).
Proof. unfold copyHeader. cbn. destruct (_ && _); done. Qed.
Lemma er_getChild n i : getChild (er_n n) i = getChild n i.
Proof. reflexivity. Qed.
Lemma er_getKeyAtIdx n i : getKeyAtIdx (er_n n) i = getKeyAtIdx n i.
Proof. reflexivity. Qed.
Lemma er_fill48 l d n : fill48 (er_n d) (er_n n) l = omapo er_n (fill48 d n l).
Proof.
  revert d. induction l as [|i l IH]; intros d; cbn; [done|]. rewrite er_getKeyAtIdx, omapo_obind.
  apply obind_ext. intros k. rewrite er_setKeyAtIdx, obind_omapo, omapo_obind. by apply obind_ext.
Qed.
Lemma er_fill256 l d n : fill256 (er_n d) (er_n n) l = omapo er_n (fill256 d n l).
Proof.
  revert d. induction l as [|i l IH]; intros d; cbn; [done|]. rewrite er_getKeyAtIdx, omapo_obind.
  apply obind_ext. intros k. destruct (Nat.eqb _ _); [done|]. rewrite er_getChild, omapo_obind.
  apply obind_ext. intros ch. rewrite er_setChildN, obind_omapo, omapo_obind. by apply obind_ext.
Qed.
Lemma er_fill16 l j d n : fill16 (er_n d) (er_n n) j l = omapo er_n (fill16 d n j l).
Proof.
  revert d j. induction l as [|i l IH]; intros d j; cbn; [done|]. rewrite er_getKeyAtIdx, omapo_obind.
  apply obind_ext. intros k. destruct (Nat.eqb _ _); [done|].
  rewrite er_setKeyAtIdx, obind_omapo, omapo_obind. apply obind_ext. intros d1.
  rewrite er_getChild, omapo_obind. apply obind_ext. intros ch.
  rewrite er_setChildN, obind_omapo, omapo_obind. by apply obind_ext.
Qed.
Lemma er_fill48from256 l j d n : fill48from256 (er_n d) (er_n n) j l = omapo er_n (fill48from256 d n j l).
Proof.
  revert d j. induction l as [|i l IH]; intros d j; cbn; [done|]. rewrite er_getChild, omapo_obind.
  apply obind_ext. intros [ch|]; [|done]. rewrite er_setChildN, obind_omapo, omapo_obind.
  apply obind_ext. intros d1. rewrite er_setKeyAtIdx, obind_omapo, omapo_obind. by apply obind_ext.
Qed.
Lemma er_removeSorted n c : removeSorted (er_n n) c = omapo (fun p => (p.1, er_n p.2)) (removeSorted n c).
Proof. unfold removeSorted. cbn. destruct (Nat.ltb _ _); done. Qed.
Lemma er_mergePrefix n ch : mergePrefix (er_n n) (er_n ch) = omapo (fun p => (p.1, er_n p.2)) (mergePrefix n ch).
Proof.
  unfold mergePrefix. cbn. rewrite omapo_obind. apply obind_ext. intros [part prefix].
  rewrite omapo_obind. apply obind_ext. intros [part' prefix']. destruct (Nat.ltb _ _); done.
Qed.
Lemma er_compact m n slow numCh l :
  compact_loop m (er_n n) slow numCh l = omapo (fun p => (er_n p.1.1, p.1.2, p.2)) (compact_loop m n slow numCh l).
Proof.
  revert n slow numCh. induction l as [|i l IH]; intros n slow numCh; cbn; [done|].
  destruct (list_find _ m) as [[? [? [a|]]]|]; [|done|].
  - rewrite er_setChildN, obind_omapo, omapo_obind. by apply obind_ext.
  - rewrite er_getChild, omapo_obind. apply obind_ext. intros ch.
    rewrite er_setChildN, obind_omapo, omapo_obind. by apply obind_ext.
Qed.

(** ** Channel-free versions of the updating operations *)

Definition emoveLeaf (newNode : addr) (leaf : option addr) : TM unit :=
  match leaf with
  | None => ret tt
  | Some l => let! nl := ewriteLeaf l in setNodeLeaf newNode (Some nl)
  end.

Definition eaddChild48 (a : addr) (c : byte) (child : addr) : TM addr :=
  let! n := loadN a in
  if Nat.ltb (n_nch n) 48 then
    updN a (fun n => insert48 n c child) ;;; ret a
  else
    let! nn := allocNode K256 in
    emoveLeaf nn (n_leaf n) ;;;
    updN nn (fun d => fill256 d n (seq 0 256)) ;;;
    updN nn (fun d => copyHeader d n) ;;;
    addChild256 nn c child.
Definition eaddChild16 (a : addr) (c : byte) (child : addr) : TM addr :=
  let! n := loadN a in
  if Nat.ltb (n_nch n) 16 then
    updN a (fun n => insertSorted n c child) ;;; ret a
  else
    let! nn := allocNode K48 in
    emoveLeaf nn (n_leaf n) ;;;
    updN nn (fun d => Ok (set_children d (go_copy (n_children d) 0 (take (n_nch n) (n_children n))))) ;;;
    updN nn (fun d => fill48 d n (seq 0 (n_nch n))) ;;;
    updN nn (fun d => copyHeader d n) ;;;
    eaddChild48 nn c child.
Definition eaddChild4 (a : addr) (c : byte) (child : addr) : TM addr :=
  let! n := loadN a in
  if Nat.ltb (n_nch n) 4 then
    updN a (fun n => insertSorted n c child) ;;; ret a
  else
    let! nn := allocNode K16 in
    emoveLeaf nn (n_leaf n) ;;;
    updN nn (fun d => Ok (set_children d (go_copy (n_children d) 0 (take (n_nch n) (n_children n))))) ;;;
    updN nn (fun d => Ok (set_keys d (go_copy (n_keys d) 0 (take (n_nch n) (n_keys n))))) ;;;
    updN nn (fun d => copyHeader d n) ;;;
    eaddChild16 nn c child.
Definition eaddChild (a : addr) (c : byte) (child : addr) : TM addr :=
  let! n := loadN a in
  match n_kind n with
  | K4 => eaddChild4 a c child
  | K16 => eaddChild16 a c child
  | K48 => eaddChild48 a c child
  | K256 => addChild256 a c child
  end.

Definition eremoveChild4 (a : addr) (c : byte) : TM addr :=
  let! n := loadN a in
  let! '(stale, n1) := lift (removeSorted n c) in
  let! n0 := loadN a in
  storeN a (set_ch n1 (n_ch n0)) ;;;
  let! n := loadN a in
  if Nat.eqb (n_nch n) 1 && match n_leaf n with None => true | Some _ => false end then
    let! ch0 := lift (getChild n 0) in
    match ch0 with
    | None => panic
    | Some ch =>
        let! nr := ewriteNode ch in
        let! n := loadN a in
        let! child := loadN nr in
        let! '(part, child') := lift (mergePrefix n child) in
        storeN a (set_partial n part) ;;;
        storeN nr child' ;;;
        ret nr
    end
  else ret a.
Definition eremoveChild16 (a : addr) (c : byte) : TM addr :=
  let! n := loadN a in
  let! '(stale, n1) := lift (removeSorted n c) in
  let! n0 := loadN a in
  storeN a (set_ch n1 (n_ch n0)) ;;;
  let! n := loadN a in
  if Nat.eqb (n_nch n) 3 then
    let! nn := allocNode K4 in
    updN nn (fun d => copyHeader d n) ;;;
    updN nn (fun d => Ok (set_keys d (go_copy (n_keys d) 0 (take 4 (n_keys n))))) ;;;
    updN nn (fun d => Ok (set_children d (go_copy (n_children d) 0 (take 4 (n_children n))))) ;;;
    emoveLeaf nn (n_leaf n) ;;;
    setNodeLeaf nn (n_leaf n) ;;;
    ret nn
  else ret a.
Definition eremoveChild48 (a : addr) (c : byte) : TM addr :=
  let! n := loadN a in
  let! pos := lift (getKeyAtIdx n c) in
  updN a (fun n => setKeyAtIdx n c 0) ;;;
  let! old := lift (getChild n (u8_decr pos)) in
  updN a (fun n => setChildN n (u8_decr pos) None) ;;;
  updN a (fun n => Ok (set_nch n (u8_decr (n_nch n)))) ;;;
  let! n := loadN a in
  if Nat.eqb (n_nch n) 12 then
    let! nn := allocNode K16 in
    updN nn (fun d => copyHeader d n) ;;;
    emoveLeaf nn (n_leaf n) ;;;
    updN nn (fun d => fill16 d n 0 (seq 0 256)) ;;;
    ret nn
  else ret a.
Definition eremoveChild256 (a : addr) (c : byte) : TM addr :=
  updN a (fun n => setChildN n c None) ;;;
  updN a (fun n => Ok (set_nch n (u8_decr (n_nch n)))) ;;;
  let! n := loadN a in
  if Nat.eqb (n_nch n) 37 then
    let! nn := allocNode K48 in
    updN nn (fun d => copyHeader d n) ;;;
    emoveLeaf nn (n_leaf n) ;;;
    updN nn (fun d => fill48from256 d n 0 (seq 0 256)) ;;;
    ret nn
  else ret a.
Definition eremoveChild (a : addr) (c : byte) : TM addr :=
  let! n := loadN a in
  match n_kind n with
  | K4 => eremoveChild4 a c
  | K16 => eremoveChild16 a c
  | K48 => eremoveChild48 a c
  | K256 => eremoveChild256 a c
  end.

Fixpoint erecursiveInsert (fuel : nat) (node : addr) (key : bytes) (value : V) (depth : nat)
  : TM (addr * V * bool * bool) :=
  match fuel with
  | O => nofuel
  | S fuel' =>
  let! t := getT in
  if (t_tsize t =? 0)%N then
    let! node := ewriteNode node in
    let! newLeaf := allocLeaf in
    setKV newLeaf key value ;;;
    setNodeLeaf node (Some newLeaf) ;;;
    ret (node, go_zero, true, false)
  else
  let! n := loadN node in
  match n_leaf n with
  | Some nodeLeaf =>
    let! nl := loadL nodeLeaf in
    if isLeafN n then
      let nodeKey := l_key nl in
      if Nat.eqb (length key) (length nodeKey) && bytes_eqb nodeKey key then
        let oldVal := l_val nl in
        let! node := ewriteNode node in
        let! newLeaf := allocLeaf in
        setKV newLeaf key value ;;;
        setNodeLeaf node (Some newLeaf) ;;;
        ret (node, oldVal, true, true)
      else
        let! newLeaf2 := makeLeaf key value in
        let! nl2 := loadN newLeaf2 in
        let! node := ewriteNode node in
        let! longestPrefix := lift (longestCommonPrefix key nodeKey depth) in
        let! newNode := allocNode K4 in
        updN newNode (fun n => Ok (set_plen n longestPrefix)) ;;;
        (if Nat.ltb (length key) (depth + (maxPrefixLen `min` longestPrefix)) then panic else
         copyPartial newNode (slice key depth (depth + (maxPrefixLen `min` longestPrefix)))) ;;;
        let! newNode :=
          (if has_prefix (getKey nodeKey) (getKey key) then
             setNodeLeaf newNode (n_leaf nl2) ;;;
             let! c := byteAt nodeKey (depth + longestPrefix) in
             eaddChild newNode c node
           else if has_prefix (getKey key) (getKey nodeKey) then
             setNodeLeaf newNode (Some nodeLeaf) ;;;
             let! c := byteAt key (depth + longestPrefix) in
             eaddChild newNode c newLeaf2
           else
             let! newNode :=
               (if Nat.ltb (depth + longestPrefix) (length nodeKey) then
                  let! c := byteAt nodeKey (depth + longestPrefix) in
                  eaddChild newNode c node
                else ret newNode) in
             if Nat.ltb (depth + longestPrefix) (length key) then
               let! c := byteAt key (depth + longestPrefix) in
               eaddChild newNode c newLeaf2
             else ret newNode) in
        ret (newNode, go_zero, true, false)
    else if leafMatches (l_key nl) key then
      let! newLeaf := ewriteLeaf nodeLeaf in
      let! x := loadL newLeaf in
      storeL newLeaf (setl_val x value) ;;;
      let! node := ewriteNode node in
      setNodeLeaf node (Some newLeaf) ;;;
      ret (node, go_zero, true, false)
    else einsertInner fuel' node key value depth
  | None => einsertInner fuel' node key value depth
  end
  end
with einsertInner (fuel : nat) (node : addr) (key : bytes) (value : V) (depth : nat)
  : TM (addr * V * bool * bool) :=
  match fuel with
  | O => nofuel
  | S fuel' =>
  let! n := loadN node in
  if Nat.ltb 0 (n_plen n) then
    let! h := getH in
    let! prefixDiff := lift (prefixMismatch h node n key depth) in
    if Nat.leb (n_plen n) prefixDiff then
      let depth := depth + n_plen n in
      let! '(child, idx) :=
        (if Nat.ltb depth (length key) then
           let! c := byteAt key depth in lift (findChild n c)
         else ret (None, 0)) in
      match child with
      | Some child =>
          let! '(newChild, val, mutatedSubTree, old) := erecursiveInsert fuel' child key value (depth + 1) in
          let! node :=
            (if mutatedSubTree || negb (Nat.eqb newChild child) then
               let! node := ewriteNode node in
               setChild node idx (Some newChild) ;;;
               ret node
             else ret node) in
          ret (node, val, mutatedSubTree, old)
      | None =>
          let! newLeaf := makeLeaf key value in
          let! bad :=
            (match n_leaf n with
             | Some nla => let! nl := loadL nla in
                 ret (negb (Nat.eqb (length (l_key nl)) 0) && has_prefix (getKey (l_key nl)) (getKey key))
             | None => ret false
             end) in
          if bad then
            let! node := ewriteNode node in
            let! newNode := allocNode K4 in
            panic
          else
            let! node := ewriteNode node in
            let! node :=
              (if Nat.ltb depth (length key) then
                 let! c := byteAt key depth in eaddChild node c newLeaf
               else ret node) in
            ret (node, go_zero, true, false)
      end
    else
      let! newNode := allocNode K4 in
      updN newNode (fun m => Ok (set_plen m prefixDiff)) ;;;
      (if Nat.ltb (length (n_partial n)) (maxPrefixLen `min` prefixDiff) then panic else
       copyPartial newNode (take (maxPrefixLen `min` prefixDiff) (n_partial n))) ;;;
      let! node := ewriteNode node in
      let! n := loadN node in
      let! newNode :=
        (if Nat.leb (n_plen n) maxPrefixLen then
           let! c := byteAt (n_partial n) prefixDiff in
           let! newNode := eaddChild newNode c node in
           let plen' := n_plen n - (prefixDiff + 1) in
           updN node (fun m => Ok (set_plen m plen')) ;;;
           let len := maxPrefixLen `min` plen' in
           (if Nat.ltb (length (n_partial n)) (prefixDiff + 1 + len) then panic else
            copyPartial node (slice (n_partial n) (prefixDiff + 1) (prefixDiff + 1 + len))) ;;;
           ret newNode
         else
           let plen' := n_plen n - (prefixDiff + 1) in
           updN node (fun m => Ok (set_plen m plen')) ;;;
           let! h := getH in
           let! lo := lift (minimum (walk_fuel h) h (Some node)) in
           match lo with
           | None => panic
           | Some la =>
               let! l := loadL la in
               let! c := byteAt (l_key l) (depth + prefixDiff) in
               let! newNode := eaddChild newNode c node in
               let len := maxPrefixLen `min` plen' in
               (if Nat.ltb (length (l_key l)) (depth + prefixDiff + 1 + len) then panic else
                copyPartial node (slice (l_key l) (depth + prefixDiff + 1) (depth + prefixDiff + 1 + len))) ;;;
               ret newNode
           end) in
      let! newLeaf := makeLeaf key value in
      let! newNode :=
        (if Nat.ltb (depth + prefixDiff) (length key) then
           let! c := byteAt key (depth + prefixDiff) in
           eaddChild newNode c newLeaf
         else ret newNode) in
      ret (newNode, go_zero, true, false)
  else
    let! c := byteAt key depth in
    let! '(child, idx) := lift (findChild n c) in
    match child with
    | Some child =>
        let! '(newChild, val, mutatedSubTree, old) := erecursiveInsert fuel' child key value (depth + 1) in
        let! node :=
          (if mutatedSubTree || negb (Nat.eqb newChild child) then
             let! node := ewriteNode node in
             setChild node idx (Some newChild) ;;;
             ret node
           else ret node) in
        ret (node, val, mutatedSubTree, old)
    | None =>
        let! newLeaf := makeLeaf key value in
        if Nat.ltb depth (length key) then
          let! node := ewriteNode node in
          let! node := eaddChild node c newLeaf in
          ret (node, go_zero, true, false)
        else ret (node, go_zero, false, false)
    end
  end.

Definition etxnInsert (key : bytes) (value : V) : TM (V * bool) :=
  let tk := getTreeKey key in
  let! t := getT in
  let! '(newRoot, oldVal, _, old) := erecursiveInsert (insert_fuel tk) (t_root t) tk value 0 in
  let! t := getT in
  let t := if old then t else set_t_tsize (set_t_size t (u64_incr (t_size t))) (u64_incr (t_tsize t)) in
  putT (set_t_root t newRoot) ;;;
  ret (oldVal, old).

Fixpoint erecursiveDelete (fuel : nat) (node : option addr) (key : bytes) (depth : nat)
  : TM (option addr * option ref * bool) :=
  match fuel with
  | O => nofuel
  | S fuel' =>
  match node with
  | None => ret (None, None, false)
  | Some node =>
  let! n := loadN node in
  if isLeafN n && leafMatches [] key then ret (None, Some (RN node), true)
  else
  let! hit :=
    (match n_leaf n with
     | Some nodeL => let! nl := loadL nodeL in
                     ret (if leafMatches (l_key nl) key then Some nodeL else None)
     | None => ret None
     end) in
  match hit with
  | Some nodeL =>
      let! node := ewriteNode node in
      setNodeLeaf node None ;;;
      let! n := loadN node in
      if Nat.ltb 0 (n_nch n) then ret (Some node, Some (RL nodeL), true)
      else ret (None, Some (RL nodeL), false)
  | None =>
      let! bail :=
        (if Nat.ltb 0 (n_plen n) then
           let! prefixLen := lift (checkPrefix (n_partial n) (n_plen n) key depth) in
           ret (negb (Nat.eqb prefixLen (maxPrefixLen `min` n_plen n)))
         else ret false) in
      if bail then ret (Some node, None, false)
      else
      let depth := depth + n_plen n in
      let! c := byteAt key depth in
      let! '(child, idx) := lift (findChild n c) in
      match child with
      | None => ret (None, None, false)
      | Some child =>
          let! '(newChild, val, mutate) := erecursiveDelete fuel' (Some child) key (depth + 1) in
          let! node :=
            (if negb (opt_addr_eqb newChild (Some child)) || is_some val then
               let! node := ewriteNode node in
               setChild node idx newChild ;;;
               match newChild with
               | None => eremoveChild node c
               | Some _ => ret node
               end
             else ret node) in
          let! n := loadN node in
          if Nat.eqb (n_nch n) 0 then
            if is_some (n_leaf n) then ret (Some node, val, mutate) else ret (None, val, mutate)
          else ret (Some node, val, mutate)
      end
  end
  end
  end.

Definition etxnDelete (key : bytes) : TM (V * bool) :=
  let tk := getTreeKey key in
  let! t := getT in
  let! '(newRoot, l, _) := erecursiveDelete (delete_fuel tk) (Some (t_root t)) tk 0 in
  (match newRoot with
   | None => installEmptyRoot
   | Some r => let! t := getT in putT (set_t_root t r)
   end) ;;;
  match l with
  | Some x =>
      let! _t := getT in
      let! t := getT in
      putT (set_t_tsize (set_t_size t (u64_sub (t_size t) 1)) (u64_sub (t_tsize t) 1)) ;;;
      match x with
      | RL la => let! lf := loadL la in ret (l_val lf, true)
      | RN _ => ret (go_zero, true)
      end
  | None => ret (go_zero, false)
  end.

Fixpoint edeletePrefix (fuel : nat) (node : option addr) (key : bytes) (depth : nat)
  : TM (option addr * nat) :=
  match fuel with
  | O => nofuel
  | S fuel' =>
  match node with
  | None => ret (None, 0)
  | Some node =>
  let! n := loadN node in
  if isLeafN n then
    match n_leaf n with
    | Some nL =>
        let! nl := loadL nL in
        if has_prefix (getKey (l_key nl)) (getKey key) then ret (None, 1)
        else ret (Some node, 0)
    | None => ret (Some node, 0)
    end
  else
  let! depth :=
    (if Nat.ltb 0 (n_plen n) then
       let! prefixLen := lift (checkPrefix (n_partial n) (n_plen n) key depth) in
       ret (if Nat.ltb prefixLen (maxPrefixLen `min` length (getKey key)) then depth + prefixLen else depth)
     else ret depth) in
  let! numDel :=
    (match n_leaf n with
     | Some nL =>
         let! nl := loadL nL in
         if has_prefix (getKey (l_key nl)) (getKey key) then ret 1 else ret 0
     | None => ret 0
     end) in
  let! '(m, numDel) :=
    (fix loop (chs : list (option addr)) (idx : nat) (m : list (nat * option addr)) (numDel : nat)
       : TM (list (nat * option addr) * nat) :=
       match chs with
       | [] => ret (m, numDel)
       | None :: chs' => loop chs' (idx + 1) m numDel
       | Some ch :: chs' =>
           let! '(newCh, del) := edeletePrefix fuel' (Some ch) key (depth + 1) in
           loop chs' (idx + 1) (m ++ [(idx, newCh)]) (numDel + del)
       end) (n_children n) 0 [] numDel in
  let! node := ewriteNode node in
  let! n := loadN node in
  let! '(n', slow, numCh) := lift (compact_loop m n 0 0 (seq 0 (n_nch n))) in
  storeN node (set_nch (set_children n' (clear_from (n_children n') slow)) (u8 numCh)) ;;;
  ret (Some node, numDel)
  end
  end.

Definition etxnDeletePrefix (prefix : bytes) : TM bool :=
  let key := getTreeKey prefix in
  let! t := getT in
  let! h := getH in
  let! '(newRoot, numDeletions) := edeletePrefix (walk_fuel h) (Some (t_root t)) key 0 in
  (match newRoot with
   | None => installEmptyRoot
   | Some r => let! t := getT in putT (set_t_root t r)
   end) ;;;
  if Nat.eqb numDeletions 0 then ret false
  else
    let! _t := getT in
    let! t := getT in
    let sz := u64_sub (t_tsize t) (N.of_nat numDeletions) in
    putT (set_t_size (set_t_tsize t sz) sz) ;;;
    ret true.

(** ** Simulation *)

Lemma sim_updN a f f0 : (forall n, f0 (er_n n) = omapo er_n (f n)) -> sim id (updN a f) (updN a f0).
Proof.
  intros Hf. eapply sim_bind; [apply sim_loadN|intros n].
  eapply sim_bind; [apply (sim_lift er_n); symmetry; apply Hf|intros n']. by apply sim_storeN.
Qed.
Lemma sim_setNodeLeaf a l : sim id (setNodeLeaf a l) (setNodeLeaf a l).
Proof. apply sim_updN. done. Qed.
Lemma sim_setChild a i c : sim id (setChild a i c) (setChild a i c).
Proof. apply sim_updN. intros. apply er_setChildN. Qed.
Lemma sim_setKV l k v : sim id (setKV l k v) (setKV l k v).
Proof. eapply sim_bind; [apply sim_loadL|intros x]. by apply sim_storeL. Qed.
Lemma sim_allocNode k : sim id (allocNode k) (allocNode k).
Proof. eapply sim_bind; [apply sim_nextId|intros i]. apply sim_liftH. by apply hsim_allocN. Qed.
Lemma sim_allocLeaf : sim id allocLeaf allocLeaf.
Proof. eapply sim_bind; [apply sim_nextId|intros i]. apply sim_liftH. by apply hsim_allocL. Qed.
Lemma sim_copyPartial a p : sim id (copyPartial a p) (copyPartial a p).
Proof. apply sim_updN. done. Qed.
Lemma sim_bind_id {A B C} (g : B -> C) (m m0 : TM A) k k0 :
  sim id m m0 -> (forall a, sim g (k a) (k0 a)) -> sim g (bind m k) (bind m0 k0).
Proof. intros Hm Hk. by eapply (sim_bind id). Qed.

End Er.

Ltac sim_pure :=
  first [reflexivity | apply er_insertSorted | apply er_insert48 | apply er_insert256
        | apply er_setChildN | apply er_setKeyAtIdx | apply er_copyHeader | apply er_fill48 | apply er_fill256
        | apply er_fill16 | apply er_fill48from256 ].
Ltac sim_leaf :=
  lazymatch goal with
  | |- sim _ nofuel _ => apply sim_nofuel
  | |- sim _ panic _ => apply sim_panic
  | |- sim _ (ret _) _ => apply sim_ret; reflexivity
  | |- sim _ (setNodeLeaf _ _) _ => apply sim_setNodeLeaf
  | |- sim _ (setChild _ _ _) _ => apply sim_setChild
  | |- sim _ (setKV _ _ _) _ => apply sim_setKV
  | |- sim _ (allocNode _) _ => apply sim_allocNode
  | |- sim _ allocLeaf _ => apply sim_allocLeaf
  | |- sim _ (copyPartial _ _) _ => apply sim_copyPartial
  | |- sim _ (writeNode _ _) _ => apply sim_writeNode
  | |- sim _ (writeLeaf _ _) _ => apply sim_writeLeaf
  | |- sim _ (byteAt _ _) _ => apply sim_byteAt
  | |- sim _ nextId _ => apply sim_nextId
  | |- sim _ (storeN _ _) _ => apply sim_storeN; reflexivity
  | |- sim _ (storeL _ _) _ => apply sim_storeL; reflexivity
  | |- sim _ (putT _) _ => apply sim_putT; reflexivity
  | |- sim _ (updN _ _) _ => apply sim_updN; intros; sim_pure
  | |- sim _ (if ?b then _ else _) (if _ then _ else _) => apply (sim_if _ b)
  end.
Ltac sim_step :=
  lazymatch goal with
  | |- sim _ (bind (trackN _) _) _ => apply sim_skip; [apply sim_trackN|]
  | |- sim _ (bind (trackL _) _) _ => apply sim_skip; [apply sim_trackL|]
  | |- sim _ (bind (trackOptL _) _) _ => apply sim_skip; [apply sim_trackOptL|]
  | |- sim _ (bind (trackAllN _) _) _ => apply sim_skip; [apply sim_trackAllN|]
  | |- sim _ (bind (if _ then trackN _ else ret tt) _) _ =>
      apply sim_skip; [match goal with |- sim _ (if ?o then _ else _) (ret tt) => destruct o end;
           [apply sim_trackN | apply sim_ret; reflexivity]|]
  | |- sim _ (bind (match _ with Some _ => trackN _ | None => ret tt end) _) _ =>
      apply sim_skip; [match goal with |- sim _ (match ?o with _ => _ end) (ret tt) => destruct o end;
           [apply sim_trackN | apply sim_ret; reflexivity]|]
  | |- sim _ (bind (loadN _) _) _ => eapply sim_bind; [apply sim_loadN | intros ?]
  | |- sim _ (bind (loadL _) _) _ => eapply sim_bind; [apply sim_loadL | intros ?]
  | |- sim _ (bind getT _) _ => eapply sim_bind; [apply sim_getT | intros ?]
  | |- sim _ (bind getH _) _ => eapply sim_bind; [apply sim_getH | intros ?]
  | |- sim _ (bind _ _) _ => fail
  | |- _ => sim_leaf
  end.

Section Er2.
Context {V : Type} `{GoZero V}.
Notation HM := (M (heap V)).
Notation TM := (M (st V)).

Lemma sim_makeLeaf k (v : V) : sim id (makeLeaf k v) (makeLeaf k v).
Proof. unfold makeLeaf. repeat first [sim_step | apply sim_bind_id; [|intros ?]]. Qed.
Lemma sim_moveLeaf a o : sim (V:=V) id (moveLeaf a o) (emoveLeaf a o).
Proof. destruct o; cbn; repeat first [sim_step | apply sim_bind_id; [|intros ?]]. Qed.

Lemma sim_bind_lift {A B C D} (f : A -> B) (g : C -> D) (o : outcome A) o0 (k : A -> TM C) k0 :
  omapo f o = o0 -> (forall a, sim g (k a) (k0 (f a))) -> sim g (let! x := lift o in k x) (let! x := lift o0 in k0 x).
Proof. intros E Hk. eapply sim_bind; [by apply sim_lift|exact Hk]. Qed.
Lemma sim_bind_lift_id {A C D} (g : C -> D) (o o0 : outcome A) (k : A -> TM C) k0 :
  o = o0 -> (forall a, sim g (k a) (k0 a)) -> sim g (let! x := lift o in k x) (let! x := lift o0 in k0 x).
Proof. intros -> Hk. eapply (sim_bind_lift id); [by destruct o0|exact Hk]. Qed.

Ltac sim_bindstep :=
  lazymatch goal with
  | |- sim _ (bind (lift (removeSorted _ _)) _) _ =>
      eapply (sim_bind_lift (fun p => (p.1, er_n p.2))); [symmetry; apply er_removeSorted|]; intros [? ?]; cbn [fst snd]
  | |- sim _ (bind (lift (mergePrefix _ _)) _) _ =>
      eapply (sim_bind_lift (fun p => (p.1, er_n p.2))); [symmetry; apply er_mergePrefix|]; intros [? ?]; cbn [fst snd]
  | |- sim _ (bind (lift (compact_loop _ _ _ _ _)) _) _ =>
      eapply (sim_bind_lift (fun p => (er_n p.1.1, p.1.2, p.2))); [symmetry; apply er_compact|]; intros [[? ?] ?]; cbn [fst snd]
  | |- sim _ (bind (lift (prefixMismatch _ _ _ _ _)) _) _ =>
      apply sim_bind_lift_id; [symmetry; apply er_prefixMismatch|intros ?]
  | |- sim _ (bind (lift (minimum _ _ _)) _) _ =>
      apply sim_bind_lift_id; [symmetry; apply er_minimum|intros ?]
  | |- sim _ (bind (lift _) _) _ => apply sim_bind_lift_id; [reflexivity|intros ?]
  | |- sim _ (bind _ _) (bind _ _) => apply sim_bind_id; [|intros ?]
  | |- sim _ (lift _) (lift _) => apply sim_lift; first [reflexivity | by destruct (findChild _ _)]
  | |- sim _ (match ?x with (_, _) => _ end) _ => destruct x; cbn [fst snd]
  | |- sim _ (match ?x with Some _ => _ | None => _ end) _ =>
      repeat match goal with |- context[n_leaf (er_n ?n)] => change (n_leaf (er_n n)) with (n_leaf n) end;
      destruct x
  | |- sim _ (match ?x with RL _ => _ | RN _ => _ end) _ => destruct x
  end.
Ltac go_with tac := repeat (cbn beta iota zeta;
  lazymatch goal with
  | |- sim _ (makeLeaf _ _) _ => apply sim_makeLeaf
  | |- sim _ (moveLeaf _ _) _ => apply sim_moveLeaf
  | |- sim _ (bind _ _) _ => first [sim_step | sim_bindstep]
  | |- _ => first [sim_step | tac | sim_bindstep]
  end).
Ltac go := go_with fail.

Lemma sim_addChild256 a c ch : sim (V:=V) id (addChild256 a c ch) (addChild256 a c ch).
Proof. unfold addChild256. go. Qed.
Lemma sim_addChild48 a c ch : sim (V:=V) id (addChild48 a c ch) (eaddChild48 a c ch).
Proof. unfold addChild48, eaddChild48. go_with ltac:(apply sim_addChild256). Qed.
Lemma sim_addChild16 a c ch : sim (V:=V) id (addChild16 a c ch) (eaddChild16 a c ch).
Proof. unfold addChild16, eaddChild16. go_with ltac:(apply sim_addChild48). Qed.
Lemma sim_addChild4 a c ch : sim (V:=V) id (addChild4 a c ch) (eaddChild4 a c ch).
Proof. unfold addChild4, eaddChild4. go_with ltac:(apply sim_addChild16). Qed.
Lemma sim_addChild a c ch : sim (V:=V) id (addChild a c ch) (eaddChild a c ch).
Proof.
  unfold addChild, eaddChild. go. cbn. destruct (n_kind _).
  - apply sim_addChild4.
  - apply sim_addChild16.
  - apply sim_addChild48.
  - apply sim_addChild256.
Qed.


Lemma sim_removeChild4 a c : sim (V:=V) id (removeChild4 a c) (eremoveChild4 a c).
Proof. unfold removeChild4, eremoveChild4. go. Qed.
Lemma sim_removeChild16 a c : sim (V:=V) id (removeChild16 a c) (eremoveChild16 a c).
Proof. unfold removeChild16, eremoveChild16. go. Qed.
Lemma sim_removeChild48 a c : sim (V:=V) id (removeChild48 a c) (eremoveChild48 a c).
Proof.
  unfold removeChild48, eremoveChild48. go.
Qed.
Lemma sim_removeChild256 a c : sim (V:=V) id (removeChild256 a c) (eremoveChild256 a c).
Proof. unfold removeChild256, eremoveChild256. go. Qed.
Lemma sim_removeChild a c : sim (V:=V) id (removeChild a c) (eremoveChild a c).
Proof.
  unfold removeChild, eremoveChild. go. cbn. destruct (n_kind _).
  - apply sim_removeChild4.
  - apply sim_removeChild16.
  - apply sim_removeChild48.
  - apply sim_removeChild256.
Qed.

Lemma sim_insert fuel :
  (forall node key (v : V) depth, sim id (recursiveInsert fuel node key v depth) (erecursiveInsert fuel node key v depth)) /\
  (forall node key (v : V) depth, sim id (insertInner fuel node key v depth) (einsertInner fuel node key v depth)).
Proof.
  induction fuel as [|fuel [IH1 IH2]]; split; intros; cbn [recursiveInsert erecursiveInsert insertInner einsertInner];
    try apply sim_nofuel.
  - go_with ltac:(first [apply IH1 | apply IH2 | apply sim_addChild]).
  - go_with ltac:(first [apply IH1 | apply IH2 | apply sim_addChild]).
Qed.

Lemma sim_delete fuel : forall node key depth,
  sim (V:=V) id (recursiveDelete fuel node key depth) (erecursiveDelete fuel node key depth).
Proof.
  induction fuel as [|fuel IH]; intros; cbn [recursiveDelete erecursiveDelete]; [apply sim_nofuel|].
  go_with ltac:(first [apply IH | apply sim_removeChild]).
Qed.
Lemma sim_installEmptyRoot : sim (V:=V) id installEmptyRoot installEmptyRoot.
Proof.
  unfold installEmptyRoot. go; apply sim_liftH; [by apply hsim_allocL|by apply hsim_allocN].
Qed.
Lemma sim_txnInsert key (v : V) : sim id (txnInsert key v) (etxnInsert key v).
Proof. unfold txnInsert, etxnInsert. go_with ltac:(apply sim_insert). destruct b; go. Qed.
Lemma sim_txnDelete key : sim (V:=V) id (txnDelete key) (etxnDelete key).
Proof. unfold txnDelete, etxnDelete. go_with ltac:(first [apply sim_delete | apply sim_installEmptyRoot]). Qed.
Lemma sim_deletePrefix fuel : forall node key depth,
  sim (V:=V) id (deletePrefix fuel node key depth) (edeletePrefix fuel node key depth).
Proof.
  induction fuel as [|fuel IH]; intros; cbn [deletePrefix edeletePrefix]; [apply sim_nofuel|].
  go_with ltac:(apply IH).
  change (n_children (er_n a)) with (n_children a).
  match goal with |- sim _ (?f ?l ?i ?m ?d) (?g _ _ _ _) =>
    enough (forall d' i' m', sim id (f l i' m' d') (g l i' m' d')) by done end. clear a1.
  induction (n_children a) as [|[ch|] chs IHc]; intros nd idx m; [go|go_with ltac:(first [apply IH | apply IHc])|apply IHc].
Qed.
Lemma sim_txnDeletePrefix key : sim (V:=V) id (txnDeletePrefix key) (etxnDeletePrefix key).
Proof.
  unfold txnDeletePrefix, etxnDeletePrefix.
  go_with ltac:(first [apply sim_deletePrefix | apply sim_installEmptyRoot]).
Qed.

(** ** Transactions and trees *)
Definition enewTxn (tr : rtree) : HM txn :=
  let! r := ecloneN (r_root tr) in
  ret (mkTx r (r_size tr) (r_max tr) (r_size tr) (r_max tr) false []).
Definition ecloneTxn (t : txn) : HM txn :=
  let! r := ecloneN (t_root t) in
  ret (mkTx r (t_size t) (t_max t) (t_size t) (t_max t) false []).
Definition ecloneTree (t : rtree) : HM rtree :=
  let! r := ecloneN (r_root t) in
  ret (mkT r (r_size t) (r_max t)).
Lemma hsim_newTxn tr : hsim (V:=V) id (newTxn tr) (enewTxn tr).
Proof. eapply hsim_bind; [apply hsim_cloneN|]. intros a. by apply hsim_ret. Qed.
Lemma hsim_cloneTxn t : hsim (V:=V) id (cloneTxn t) (ecloneTxn t).
Proof. eapply hsim_bind; [apply hsim_cloneN|]. intros a. by apply hsim_ret. Qed.
Lemma hsim_cloneTree t : hsim (V:=V) id (cloneTree t) (ecloneTree t).
Proof. eapply hsim_bind; [apply hsim_cloneN|]. intros a. by apply hsim_ret. Qed.
Lemma hsim_newTree : hsim (V:=V) id newTree newTree.
Proof.
  eapply (hsim_bind id); [by apply hsim_allocL|intros l].
  eapply (hsim_bind id); [by apply hsim_allocN|intros r]. by apply hsim_ret.
Qed.
Lemma hsim_closeAll cs : hsim (V:=V) id (closeAll cs) (ret tt).
Proof.
  induction cs as [|c cs IH]; [by apply hsim_ret|]. cbn. eapply (hsim_skip id); [|intros _; exact IH].
  intros h. unfold hcloseIfOpen. cbn. destruct (bool_decide _); reflexivity.
Qed.
Lemma sim_commit : sim (V:=V) id commit (let! t := getT in ret (commitOnly t)).
Proof.
  unfold commit. eapply sim_bind; [apply sim_getT|]. intros t. cbn zeta.
  apply sim_skip; [|by apply sim_ret].
  destruct (t_track t); [|by apply sim_ret]. unfold notify.
  intros s. unfold bind, getT. cbn. destruct (t_track (s_t s)); [|reflexivity].
  unfold slowNotify, bind, getT. cbn. unfold liftH.
  pose proof (hsim_closeAll (t_chs (s_t s)) (s_h s)) as E.
  destruct (closeAll (t_chs (s_t s)) (s_h s)) as [[[]| |] h']; cbn in *; [|done..].
  unfold er. cbn. apply (f_equal snd) in E. cbn in E. rewrite E. reflexivity.
Qed.
Definition ewithTxn {A} (t : rtree) (m : M (st V) A) : HM (rtree * A) := fun h =>
  match enewTxn t h with
  | (Ok tx, h1) =>
      match m (mkS h1 tx) with
      | (Ok a, s) => (Ok (commitOnly (s_t s), a), s_h s)
      | (Panic, s) => (Panic, s_h s)
      | (NoFuel, s) => (NoFuel, s_h s)
      end
  | (Panic, h1) => (Panic, h1)
  | (NoFuel, h1) => (NoFuel, h1)
  end.
Lemma newTxn_track tr (h : heap V) tx h' : newTxn tr h = (Ok tx, h') -> er_t tx = tx.
Proof.
  unfold newTxn, bind. destruct (cloneN _ _ _) as [[r| |] h1]; [|done..]. unfold ret. intros [= <- <-]. reflexivity.
Qed.
Lemma hsim_withTxn {A} t (m m0 : TM A) : sim id m m0 -> hsim id (withTxn t m) (ewithTxn t m0).
Proof.
  intros Hm h. unfold withTxn, ewithTxn. rewrite <- (hsim_newTxn t h).
  destruct (newTxn t h) as [[tx| |] h1] eqn:E; cbn [fst snd omapo]; [|done..].
  apply newTxn_track in E. specialize (Hm (mkS h1 tx)). unfold er in Hm at 2. cbn in Hm. rewrite E in Hm.
  unfold id. rewrite <- Hm. destruct (m _) as [[a| |] s] eqn:Em; cbn [fst snd omapo]; [|done..].
  pose proof (sim_commit s) as Hc. unfold id in Hc. generalize dependent (commit s).
  unfold bind, getT, ret. intros cs Hc.
  destruct cs as [[t'| |] s']; cbn in *; [|done..].
  pose proof (f_equal fst Hc) as E1. apply (f_equal (fun p => s_h p.2)) in Hc. cbn in *. unfold id in E1.
  injection E1 as ->. rewrite Hc. reflexivity.
Qed.

(** ** The remaining readers *)
Lemma er_ownLeaf h key n : ownLeaf (V:=V) (er_h h) key (er_n n) = ownLeaf h key n.
Proof. unfold ownLeaf. cbn. destruct (n_leaf n); [|done]. rewrite lookup_fmap. destruct (h_leaves h !! _); done. Qed.
Lemma er_scanChildren h key chs : scanChildren (V:=V) (er_h h) key chs = scanChildren h key chs.
Proof.
  induction chs as [|[c|] chs IH]; cbn; [done| |done]. rewrite lookup_fmap.
  destruct (h_nodes h !! c) as [n|]; cbn; [|done]. destruct (n_leaf n); [|done]. rewrite lookup_fmap.
  destruct (h_leaves h !! _); cbn; [|done]. by rewrite IH.
Qed.
Lemma er_search fuel h a key depth : search (V:=V) fuel (er_h h) a key depth = search fuel h a key depth.
Proof.
  revert a depth. induction fuel as [|fuel IH]; intros a depth; [done|]. cbn [search]. rewrite er_lookup.
  destruct (h_nodes h !! a) as [n|]; cbn [fmap option_fmap option_map]; [|done].
  assert (Hx : searchExit (er_h h) key a (er_n n) = searchExit h key a n).
  { unfold searchExit. rewrite er_ownLeaf. apply obind_ext. intros [la|]; [done|].
    change (n_children (er_n n)) with (n_children n). by rewrite er_scanChildren. }
  rewrite er_ownLeaf, Hx. apply obind_ext. intros [la|]; [done|]. apply obind_ext. intros pl.
  change (n_plen (er_n n)) with (n_plen n). destruct (_ && _); [done|]. destruct (key !! _); [|done].
  change (findChild (er_n n)) with (findChild n). apply obind_ext. intros [[ca|] ?]; [apply IH|done].
Qed.
Lemma er_getFrom h root key : getFrom (V:=V) (er_h h) root key = getFrom h root key.
Proof.
  unfold getFrom. rewrite er_search. apply obind_ext. intros [la|]; [|done]. rewrite er_lookupL.
  by destruct (h_leaves h !! la).
Qed.
Lemma er_lpScan h key last chs : lpScan (V:=V) (er_h h) key last chs = lpScan h key last chs.
Proof.
  revert last. induction chs as [|[c|] chs IH]; intros last; cbn; [done| |done]. rewrite lookup_fmap.
  destruct (h_nodes h !! c) as [n|]; cbn; [|done]. destruct (n_leaf n); [|done]. rewrite lookup_fmap.
  destruct (h_leaves h !! _); cbn; [|done]. by rewrite IH.
Qed.
Lemma er_lpLoop fuel h a key depth last : lpLoop (V:=V) fuel (er_h h) a key depth last = lpLoop fuel h a key depth last.
Proof.
  revert a depth last. induction fuel as [|fuel IH]; intros a depth last; [done|]. cbn [lpLoop]. rewrite er_lookup.
  destruct (h_nodes h !! a) as [n|]; cbn [fmap option_fmap option_map]; [|done].
  change (n_plen (er_n n)) with (n_plen n). change (n_partial (er_n n)) with (n_partial n).
  apply obind_ext. intros pl. destruct (_ && _); [done|]. destruct (key !! _); [|done].
  change (n_leaf (er_n n)) with (n_leaf n). change (n_children (er_n n)) with (n_children n).
  replace (match n_leaf n with None => Ok last | Some la => match h_leaves (er_h h) !! la with None => Panic
     | Some l => Ok (if has_prefix (getKey key) (getKey (l_key l)) then Some la else last) end end)
  with (match n_leaf n with None => Ok last | Some la => match h_leaves h !! la with None => Panic
     | Some l => Ok (if has_prefix (getKey key) (getKey (l_key l)) then Some la else last) end end).
  2: { destruct (n_leaf n); [|done]. rewrite er_lookupL. by destruct (h_leaves h !! _). }
  apply obind_ext. intros last'. rewrite er_lpScan. apply obind_ext. intros last''.
  change (findChild (er_n n)) with (findChild n). apply obind_ext. intros [[ca|] ?]; [apply IH|done].
Qed.
Lemma er_longestPrefixFrom h root k : longestPrefixFrom (V:=V) (er_h h) root k = longestPrefixFrom h root k.
Proof.
  unfold longestPrefixFrom. rewrite er_lookup. destruct (h_nodes h !! root) as [n|]; cbn; [|done].
  rewrite er_lpLoop. apply obind_ext. intros [la|]; [|done]. rewrite lookup_fmap. by destruct (h_leaves h !! la).
Qed.
Lemma er_leafKV h o : leafKV (V:=V) (er_h h) o = leafKV h o.
Proof. destruct o as [la|]; [|done]. unfold leafKV. rewrite er_lookupL. by destruct (h_leaves h !! la). Qed.
Lemma er_treeMinimum h t : treeMinimum (V:=V) (er_h h) t = treeMinimum h t.
Proof. unfold treeMinimum. rewrite er_minimum. apply obind_ext. apply er_leafKV. Qed.
Lemma er_treeMaximum h t : treeMaximum (V:=V) (er_h h) t = treeMaximum h t.
Proof. unfold treeMaximum. rewrite er_maximum. apply obind_ext. apply er_leafKV. Qed.
Lemma er_nextLoop fuel h path stack : nextLoop (V:=V) fuel (er_h h) path stack = nextLoop fuel h path stack.
Proof.
  revert stack. induction fuel as [|fuel IH]; intros stack; [done|]. cbn [nextLoop].
  destruct stack as [|[[a|la]|] stack]; [done| | |done].
  - rewrite er_lookup. destruct (h_nodes h !! a) as [n|]; cbn [fmap option_fmap option_map]; [|done].
    change (iterChildren (er_n n)) with (iterChildren n). change (n_leaf (er_n n)) with (n_leaf n). cbn zeta.
    destruct (n_leaf n); [|apply IH]. rewrite er_lookupL.
    destruct (h_leaves h !! _) as [l|]; cbn [fmap option_fmap option_map]; [|done].
    change (l_key (er_l l)) with (l_key l). destruct (hasPrefix _ _); [done|apply IH].
  - rewrite er_lookupL. destruct (h_leaves h !! la) as [l|]; cbn [fmap option_fmap option_map]; [|done].
    change (l_key (er_l l)) with (l_key l). destruct (_ && _); [done|apply IH].
Qed.
Lemma er_iterNext h it : iterNext (V:=V) (er_h h) it = iterNext h it.
Proof. unfold iterNext. change (walk_fuel (er_h h)) with (walk_fuel h). by rewrite er_nextLoop. Qed.
Lemma er_seekLoop fuel h a prefix depth : seekLoop (V:=V) fuel (er_h h) a prefix depth = seekLoop fuel h a prefix depth.
Proof.
  revert a depth. induction fuel as [|fuel IH]; intros a depth; [done|]. cbn [seekLoop]. rewrite er_lookup.
  destruct (h_nodes h !! a) as [n|]; cbn [fmap option_fmap option_map]; [|done].
  rewrite er_prefixMismatch. change (n_plen (er_n n)) with (n_plen n). change (isLeafN (er_n n)) with (isLeafN n).
  apply obind_ext. intros [[] d]; [done|]. destruct (prefix !! d); [|done].
  change (findChild (er_n n)) with (findChild n). apply obind_ext. intros [[ca|] ?]; [apply IH|done].
Qed.
Lemma er_seekPrefix h it prefix : seekPrefix (V:=V) (er_h h) it prefix = seekPrefix h it prefix.
Proof. unfold seekPrefix. destruct (it_node it) as [[a|]|]; [|done..]. by rewrite er_seekLoop. Qed.
Lemma er_pathNextLoop fuel h path stack : pathNextLoop (V:=V) fuel (er_h h) path stack = pathNextLoop fuel h path stack.
Proof.
  revert stack. induction fuel as [|fuel IH]; intros stack; [done|]. cbn [pathNextLoop].
  destruct stack as [|[[a|la]|] stack]; [done| | |done].
  - rewrite er_lookup. destruct (h_nodes h !! a) as [n|]; cbn [fmap option_fmap option_map]; [|done].
    change (iterChildren (er_n n)) with (iterChildren n). change (n_leaf (er_n n)) with (n_leaf n). apply IH.
  - rewrite er_lookupL. destruct (h_leaves h !! la) as [l|]; cbn [fmap option_fmap option_map]; [|done].
    change (l_key (er_l l)) with (l_key l). destruct (prefixContainsMatch _ _); [done|apply IH].
Qed.
Lemma er_pathNext h it : pathNext (V:=V) (er_h h) it = pathNext h it.
Proof. unfold pathNext. change (walk_fuel (er_h h)) with (walk_fuel h). by rewrite er_pathNextLoop. Qed.
Lemma er_lowerNextLoop fuel h stack : lowerNextLoop (V:=V) fuel (er_h h) stack = lowerNextLoop fuel h stack.
Proof.
  revert stack. induction fuel as [|fuel IH]; intros stack; [done|]. cbn [lowerNextLoop].
  destruct stack as [|[[a|la]|] stack]; [done| | |done].
  - rewrite er_lookup. destruct (h_nodes h !! a) as [n|]; cbn [fmap option_fmap option_map]; [|done].
    change (iterChildren (er_n n)) with (iterChildren n). change (n_leaf (er_n n)) with (n_leaf n). cbn zeta.
    destruct (n_leaf n); [|apply IH]. rewrite er_lookupL. by destruct (h_leaves h !! _).
  - rewrite er_lookupL. by destruct (h_leaves h !! la).
Qed.
Lemma er_lowerNext h it : lowerNext (V:=V) (er_h h) it = lowerNext h it.
Proof. unfold lowerNext. change (walk_fuel (er_h h)) with (walk_fuel h). by rewrite er_lowerNextLoop. Qed.
End Er2.
