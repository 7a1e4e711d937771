(** C60: histories in which Delete may be called with absent keys. *)
From Verif Require Export Ghost2 PropMap Refute.
From stdpp Require Export list.
Local Open Scope nat_scope.
Local Open Scope list_scope.

Section Lossy.
Context {V : Type} `{GoZero V}.
Notation kmap := (gmap (list nat) V).

Lemma lossy_length (m : kmap) os rs x : lossy os rs m x -> length rs = length os.
Proof. induction 1; rewrite ?app_length; cbn; lia. Qed.
Lemma lossy_size (m : kmap) os rs x : lossy os rs m x -> size m + x <= length os.
Proof.
  induction 1 as [|os rs m x k v _ IH Hm|os rs m x k v w _ IH Hm|os rs m x k v _ IH [[w Hm] _]|os rs m x k w _ IH Hm|os rs m x k q _ IH Hm Hq];
    rewrite ?app_length; cbn [length].
  - rewrite map_size_empty. lia.
  - rewrite (size_insert_new _ _ _ Hm). lia.
  - rewrite (size_insert_old _ _ _ _ Hm). lia.
  - rewrite (size_insert_old _ _ _ _ Hm). lia.
  - assert (size (delete k m) = pred (size m)) by (rewrite map_size_delete, Hm; lia). lia.
  - pose proof (cut_size m q). lia.
Qed.
Lemma lossy_keys (m : kmap) os rs x k : lossy os rs m x -> is_Some (m !! k) -> exists v, OInsert k v ∈ os.
Proof.
  intros Hl. revert k. induction Hl as [|os rs m x k v _ IH Hm|os rs m x k v w _ IH Hm|os rs m x k v _ IH Hm|os rs m x k w _ IH Hm|os rs m x k q _ IH Hm Hq];
    intros k1 [v1 Hk1].
  - done.
  - apply lookup_insert_Some in Hk1 as [[-> ->]|[_ Hk1]]; [exists v1; apply elem_of_app; right; by apply elem_of_list_singleton|].
    destruct (IH k1) as [v2 H2]; [eauto|]. exists v2. apply elem_of_app. by left.
  - apply lookup_insert_Some in Hk1 as [[-> ->]|[_ Hk1]]; [exists v1; apply elem_of_app; right; by apply elem_of_list_singleton|].
    destruct (IH k1) as [v2 H2]; [eauto|]. exists v2. apply elem_of_app. by left.
  - apply lookup_insert_Some in Hk1 as [[-> ->]|[_ Hk1]]; [exists v1; apply elem_of_app; right; by apply elem_of_list_singleton|].
    destruct (IH k1) as [v2 H2]; [eauto|]. exists v2. apply elem_of_app. by left.
  - apply lookup_delete_Some in Hk1 as [_ Hk1]. destruct (IH k1) as [v2 H2]; [eauto|]. exists v2. apply elem_of_app. by left.
  - apply cut_Some in Hk1 as [Hk1 _]. destruct (IH k1) as [v2 H2]; [eauto|]. exists v2. apply elem_of_app. by left.
Qed.
Lemma lossy_sub (m : kmap) os rs x : lossy os rs m x -> forall k v, m !! k = Some v -> ref_ops os ∅ !! k = Some v.
Proof.
  induction 1 as [|os rs m x k v _ IH Hm|os rs m x k v w _ IH Hm|os rs m x k v _ IH Hm|os rs m x k w _ IH Hm|os rs m x k q _ IH Hm Hq];
    intros k1 v1 Hk1; rewrite ?ref_ops_snoc; cbn [ref_op].
  - done.
  - apply lookup_insert_Some in Hk1 as [[-> ->]|[Hne Hk1]]; [apply lookup_insert|rewrite lookup_insert_ne by done; by apply IH].
  - apply lookup_insert_Some in Hk1 as [[-> ->]|[Hne Hk1]]; [apply lookup_insert|rewrite lookup_insert_ne by done; by apply IH].
  - apply lookup_insert_Some in Hk1 as [[-> ->]|[Hne Hk1]]; [apply lookup_insert|rewrite lookup_insert_ne by done; by apply IH].
  - apply lookup_delete_Some in Hk1 as [Hne Hk1]. rewrite lookup_delete_ne by done. by apply IH.
  - apply cut_Some in Hk1 as [Hk1 _]. rewrite lookup_delete_ne; [by apply IH|]. intros ->. by rewrite Hm in Hk1.
Qed.
Definition op_key (o : op V) : bytes := match o with OInsert k _ => k | ODelete k => k | ODeletePrefix k => k end.
Lemma lossy_true (m : kmap) os rs x i o w : lossy os rs m x -> os !! i = Some o -> rs !! i = Some (RVal w true) ->
  ref_ops (take i os) ∅ !! op_key o = Some w.
Proof.
  intros Hl. revert i o w.
  assert (Hstep : forall (m1 : kmap) os1 rs1 x1 o1 r1, lossy os1 rs1 m1 x1 ->
    (forall i o w, os1 !! i = Some o -> rs1 !! i = Some (RVal w true) -> ref_ops (take i os1) ∅ !! op_key o = Some w) ->
    (forall w, r1 = RVal w true -> m1 !! op_key o1 = Some w) ->
    forall i o w, (os1 ++ [o1]) !! i = Some o -> (rs1 ++ [r1]) !! i = Some (RVal w true) -> ref_ops (take i (os1 ++ [o1])) ∅ !! op_key o = Some w).
  { intros m1 os1 rs1 x1 o1 r1 Hl1 IH Hr i o w Ho Hw. pose proof (lossy_length _ _ _ _ Hl1) as Hlen.
    destruct (decide (i < length os1)) as [Hi|Hi].
    - rewrite lookup_app_l in Ho by done. rewrite lookup_app_l in Hw by lia. rewrite take_app_le by lia. by apply IH.
    - assert (i = length os1) as ->.
      { apply lookup_lt_Some in Ho. rewrite app_length in Ho. cbn in Ho. lia. }
      rewrite list_lookup_middle in Ho by done. rewrite <- Hlen, list_lookup_middle in Hw by done. injection Ho as <-. injection Hw as Hw.
      rewrite take_app. eapply lossy_sub; [exact Hl1|by apply Hr]. }
  induction Hl as [|os rs m x k v Hl IH Hm|os rs m x k v w Hl IH Hm|os rs m x k v Hl IH Hm|os rs m x k w Hl IH Hm|os rs m x k q Hl IH Hm Hq]; [done|..];
    (eapply Hstep; [exact Hl|exact IH|]); intros w' E; try done; cbn [op_key]; by injection E as ->.
Qed.
(** If no Delete reported an absent key, nothing is lost. *)
Lemma lossy_all (m : kmap) os rs x : lossy os rs m x ->
  (forall i k, os !! i = Some (ODelete k) -> exists w, rs !! i = Some (RVal w true)) -> m = ref_ops os ∅.
Proof.
  assert (Hpre : forall (m1 : kmap) os1 rs1 x1 o1 r1, lossy os1 rs1 m1 x1 ->
     (forall i k, (os1 ++ [o1]) !! i = Some (ODelete k) -> exists w : V, (rs1 ++ [r1]) !! i = Some (RVal w true)) ->
     (forall i k, os1 !! i = Some (ODelete k) -> exists w, rs1 !! i = Some (RVal w true)) /\
     (forall k, o1 = ODelete k -> exists w, r1 = RVal w true)).
  { intros m1 os1 rs1 x1 o1 r1 Hl1 Ha. pose proof (lossy_length _ _ _ _ Hl1) as Hlen. split.
    - intros i k Hi. pose proof (lookup_lt_Some _ _ _ Hi). destruct (Ha i k) as [w Hw]; [by rewrite lookup_app_l|]. exists w.
      by rewrite lookup_app_l in Hw by lia.
    - intros k ->. destruct (Ha (length os1) k) as [w Hw]; [by rewrite list_lookup_middle|]. exists w.
      rewrite <- Hlen, list_lookup_middle in Hw by done. congruence. }
  induction 1 as [|os rs m x k v Hl IH Hm|os rs m x k v w Hl IH Hm|os rs m x k v Hl IH Hm|os rs m x k w Hl IH Hm|os rs m x k q Hl IH Hm Hq]; intros Ha; [done|..];
    destruct (Hpre _ _ _ _ _ _ Hl Ha) as [Ha1 Ha2]; rewrite ref_ops_snoc, <- (IH Ha1); try done.
  by destruct (Ha2 k eq_refl).
Qed.
Lemma lossy_room (m : kmap) os rs x os' : lossy os rs m x -> roomy_ops (os ++ os') -> roomy m.
Proof.
  intros Hl Hr q. destruct (Hr q) as (b & Hb & Hn). exists b. split; [done|]. intros k Hk.
  destruct (lossy_keys _ _ _ _ _ Hl Hk) as [v Hv]. apply (Hn k v). apply elem_of_app. by left.
Qed.

(** One update of a tree. *)
Lemma treeOp_lossy (m : kmap) os rs x o h t : lossy os rs m x -> wtree (er_h h) t m x -> plain_op o -> roomy_ops (os ++ [o]) ->
  (N.of_nat (length (os ++ [o])) < 2 ^ 64)%N ->
  pp (treeOp o t) (fun p h' => exists m' x', lossy (os ++ [o]) (rs ++ [p.2]) m' x' /\ wtree (er_h h') p.1 m' x') h.
Proof.
  intros Hl Hw Hp Hroom Hlen. pose proof (lossy_size _ _ _ _ Hl) as Hsz. pose proof (lossy_room _ _ _ _ _ Hl Hroom) as Hrm.
  rewrite app_length in Hlen. cbn [length] in Hlen. destruct o as [k v|k|k]; cbn [treeOp plain_op] in *; [| |done].
  - apply pp_wp, wp_bind. eapply wp_mono; [apply (treeInsert_wtree m h t x k v Hw); [by apply Hp|by apply Hp|lia]|].
    intros [t' r] h' (x' & Hw' & Hr). apply wp_ret. cbn [fst snd] in *. exists (<[k := v]> m), x'. split; [|done].
    unfold ins_size in Hr. destruct (m !! k) as [w|] eqn:Hm.
    + destruct Hr as [[-> ->]|(-> & -> & Hsh)]; cbn; [by eapply lossy_over|by apply lossy_shadow].
    + destruct Hr as [-> ->]. cbn. by apply lossy_new.
  - destruct (m !! k) as [w|] eqn:Hm.
    + apply pp_wp, wp_bind. eapply wp_mono; [apply (treeDelete_wtree m h t x k w Hw Hm Hrm); lia|].
      intros [t' r] h' (Hw' & ->). apply wp_ret. cbn [fst snd] in *. exists (delete k m), x. split; [by apply lossy_delete|done].
    + apply pp_bind. eapply pp_mono; [apply (treeDelete_lost m h t x k Hw Hp Hm Hrm)|].
      intros [t' r] h' (-> & q & Hq & Hw'). apply pp_ret. cbn [fst snd] in *. eexists _, _. split; [|exact Hw'].
      by apply lossy_absent.
Qed.
Lemma treeOps_lossy (m : kmap) os rs x os' h t : lossy os rs m x -> wtree (er_h h) t m x -> Forall plain_op os' -> roomy_ops (os ++ os') ->
  (N.of_nat (length (os ++ os')) < 2 ^ 64)%N ->
  pp (treeOps os' t) (fun p h' => exists m' x', lossy (os ++ os') (rs ++ p.2) m' x' /\ wtree (er_h h') p.1 m' x') h.
Proof.
  intros Hl Hw Hp. revert m os rs x h t Hl Hw. induction Hp as [|o os' Ho Hp IH]; intros m os rs x h t Hl Hw Hroom Hlen; cbn [treeOps].
  - apply pp_ret. cbn. rewrite !app_nil_r. eauto.
  - apply pp_bind. eapply pp_mono; [eapply (treeOp_lossy m os rs x o h t Hl Hw Ho)|].
    + intros q. destruct (Hroom q) as (b & Hb & Hn). exists b. split; [done|]. intros k v Hin. apply (Hn k v).
      rewrite elem_of_app in Hin. rewrite elem_of_app, elem_of_cons. rewrite elem_of_list_singleton in Hin. destruct Hin as [|]; auto.
    + rewrite app_length in Hlen |- *. cbn in Hlen |- *. lia.
    + intros [t1 r1] h1 (m1 & x1 & Hl1 & Hw1). cbn [fst snd] in *. apply pp_bind. eapply pp_mono.
      * eapply (IH m1 _ _ x1 h1 t1 Hl1 Hw1); rewrite <- app_assoc; done.
      * intros [t2 r2] h2 (m2 & x2 & Hl2 & Hw2). apply pp_ret. cbn [fst snd] in *. rewrite <- !app_assoc in Hl2. eauto.
Qed.
Lemma build_lossy (os : list (op V)) h t rs : Forall plain_op os -> roomy_ops os -> (N.of_nat (length os) < 2 ^ 64)%N ->
  build os h t rs -> exists (m : kmap) x, lossy os rs m x /\ wtree (er_h h) t m x.
Proof.
  intros Hp Hr Hl Hb. unfold build, bind in Hb. pose proof (newTree_spec (V:=V) h_init) as Hn. unfold wp in Hn.
  destruct (newTree h_init) as [[t0| |] h0]; [|done..]. destruct Hn as (Hh & Hsz & _).
  eapply (treeOps_lossy ∅ [] [] 0 os h0 t0) in Hb; [exact Hb|constructor|split; [by left|done]|done|done|done].
Qed.
End Lossy.

(** *** C60.  After any Inserts of non-empty keys and any Deletes, of stored or absent keys, that did not
    panic: the results, Get and Len are those of one run of the reference [lossy]. *)
Lemma C60_proof {V} `{GoZero V} (os : list (op V)) h t rs :
  Forall plain_op os -> roomy_ops os -> (N.of_nat (length os) < 2 ^ 64)%N -> build os h t rs ->
  exists (m : gmap (list nat) V) x, lossy os rs m x /\ treeLen t = N.of_nat (size m + x) /\
    forall k, is_bytes k -> treeGet h t k = Ok (ref_get m k).
Proof.
  intros Hp Hr Hl Hb. destruct (build_lossy os h t rs Hp Hr Hl Hb) as (m & x & Hlo & Hw). exists m, x. split; [done|].
  split; [apply Hw|]. intros k Hk. by eapply wtree_get.
Qed.
(** *** C60: such a tree never lies.  A value that Get reports is the value of the key in the reference map; so
    is one that an Insert or a Delete of the history reported. *)
Lemma C60_sound_proof {V} `{GoZero V} (os : list (op V)) h t rs :
  Forall plain_op os -> roomy_ops os -> (N.of_nat (length os) < 2 ^ 64)%N -> build os h t rs ->
  (forall k v, is_bytes k -> treeGet h t k = Ok (v, true) -> ref_ops os ∅ !! k = Some v) /\
  (forall i k v w, os !! i = Some (OInsert k v) -> rs !! i = Some (RVal w true) -> ref_ops (take i os) ∅ !! k = Some w) /\
  (forall i k w, os !! i = Some (ODelete k) -> rs !! i = Some (RVal w true) -> ref_ops (take i os) ∅ !! k = Some w).
Proof.
  intros Hp Hr Hl Hb. destruct (build_lossy os h t rs Hp Hr Hl Hb) as (m & x & Hlo & Hw). split; [|split].
  - intros k v Hk E. rewrite (wtree_get m h t x k Hw Hk) in E. unfold ref_get in E. destruct (m !! k) as [w|] eqn:Hm; [|done].
    injection E as ->. by eapply lossy_sub.
  - intros i k v w Hi Hri. exact (lossy_true _ _ _ _ _ _ _ Hlo Hi Hri).
  - intros i k w Hi Hri. exact (lossy_true _ _ _ _ _ _ _ Hlo Hi Hri).
Qed.
(** *** C60: keys are only lost by Deletes that report an absent key.  When every Delete of the history reported
    a value, Get is that of the reference map. *)
Lemma C60_complete_proof {V} `{GoZero V} (os : list (op V)) h t rs :
  Forall plain_op os -> roomy_ops os -> (N.of_nat (length os) < 2 ^ 64)%N -> build os h t rs ->
  (forall i k, os !! i = Some (ODelete k) -> exists w, rs !! i = Some (RVal w true)) ->
  forall k, is_bytes k -> treeGet h t k = Ok (ref_get (ref_ops os ∅) k).
Proof.
  intros Hp Hr Hl Hb Ha k Hk. destruct (build_lossy os h t rs Hp Hr Hl Hb) as (m & x & Hlo & Hw).
  rewrite <- (lossy_all _ _ _ _ Hlo Ha). by eapply wtree_get.
Qed.
(** *** C60: the next update does not panic, if it is an Insert of a non-empty key or a Delete of a key that Get
    finds; the Delete reports the value that Get finds. *)
Lemma C60_next_proof {V} `{GoZero V} (os : list (op V)) h t rs :
  Forall plain_op os -> roomy_ops os -> (N.of_nat (S (length os)) < 2 ^ 64)%N -> build os h t rs ->
  (forall k v, valid_key k -> k <> [] -> exists h' t' r, treeInsert t k v h = (Ok (t', r), h') /\ treeGet h' t' k = Ok (v, true)) /\
  (forall k v, is_bytes k -> treeGet h t k = Ok (v, true) -> exists h' t', treeDelete t k h = (Ok (t', (v, true)), h') /\
     treeGet h' t' k = Ok (go_zero, false)).
Proof.
  intros Hp Hr Hl Hb. destruct (build_lossy os h t rs Hp Hr) as (m & x & Hlo & Hw); [lia|done|]. pose proof (lossy_size _ _ _ _ Hlo). split.
  - intros k v Hv Hne. pose proof (treeInsert_wtree m h t x k v Hw Hv Hne) as Hi. apply wp_elim in Hi as ([t' r] & h' & E & x' & Hw' & _); [|lia].
    exists h', t', r. split; [done|]. rewrite (wtree_get _ _ _ _ _ Hw'); [unfold ref_get; by rewrite lookup_insert|].
    eapply Forall_impl; [exact Hv|]. by intros ? [? _].
  - intros k v Hk E. rewrite (wtree_get m h t x k Hw Hk) in E. unfold ref_get in E. destruct (m !! k) as [w|] eqn:Hm; [|done]. injection E as ->.
    pose proof (treeDelete_wtree m h t x k v Hw Hm) as Hi. apply wp_elim in Hi as ([t' r] & h' & E & Hw' & Er); [|eapply (lossy_room _ _ _ _ []); [done|by rewrite app_nil_r]|lia].
    cbn [fst snd] in *. subst r. exists h', t'. split; [done|]. rewrite (wtree_get _ _ _ _ _ Hw' Hk). unfold ref_get. by rewrite lookup_delete.
Qed.
(** Fewer than 256 updates leave room. *)
Lemma roomy_ops_small {V} (os : list (op V)) : length os < 256 -> roomy_ops os.
Proof.
  intros Hl. set (m := foldr (fun o (m : gmap (list nat) V) => match o with OInsert k v => <[k := v]> m | _ => m end) ∅ os).
  assert (Hs : size m <= length os).
  { subst m. clear. induction os as [|[k v|k|k] os IH]; cbn [foldr length]; [by rewrite map_size_empty|..]; [|lia|lia].
    rewrite map_size_insert. destruct (_ !! k); cbn; lia. }
  assert (Hk : forall k v, OInsert k v ∈ os -> is_Some (m !! k)).
  { subst m. clear. induction os as [|[k1 v1|k1|k1] os IH]; intros k v Hin; [by apply elem_of_nil in Hin|..]; apply elem_of_cons in Hin as [E|Hin]; try done; cbn [foldr].
    - injection E as -> _. rewrite lookup_insert. eauto.
    - destruct (decide (k1 = k)) as [->|]; [rewrite lookup_insert; eauto|]. rewrite lookup_insert_ne by done. eauto.
    - eauto.
    - eauto. }
  intros q. destruct (roomy_small m) with (q := q) as (b & Hb & Hn); [lia|]. exists b. split; [done|]. intros k v Hin. apply Hn. by eapply Hk.
Qed.

Ltac plain := unfold plain_op; repeat constructor; try done; vm_compute; lia.
(** *** C60: without "non-empty" the next Insert may panic.  Here the tree has lost its last key, by Deletes that
    all report a value, but its Len is not zero. *)
Lemma C60_empty_key_refuted_proof : exists (os : list (op nat)) h t rs,
  Forall plain_op os /\ roomy_ops os /\ build os h t rs /\ ref_ops os ∅ = ∅ /\ (treeInsert t [] 7 h).1 = Panic.
Proof.
  exists [I "a" 1; I "ab" 2; I "a" 3; D "a"; D "ab"]. do 3 eexists. split; [plain|]. split; [apply roomy_ops_small; cbn; lia|].
  split; [apply build_intro; vc|]. split; [apply (bool_decide_unpack _); by vm_compute|]. vc.
Qed.

(** An absent Delete that loses nothing, one that loses the keys under "a", and a tree that has lost its last key
    with Len 1 and grows again. *)
Definition ex_lossy : list (op nat) :=
  [I "ab" 1; I "ac" 2; I "bbcc" 3; I "bbcd" 4; I "bb" 5; I "bb" 6; D "bxcc"; D "ad"; D "bb"; D "bbcc"; D "bbcd"; I "x" 7; I "xy" 8; D "zz"; I "w" 9].
Example ex_C60 : Forall plain_op ex_lossy /\ roomy_ops ex_lossy /\ exists h t rs, build ex_lossy h t rs /\
  rs = [RVal 0 false; RVal 0 false; RVal 0 false; RVal 0 false; RVal 0 false; RVal 5 true; RVal 0 false; RVal 0 false;
        RVal 6 true; RVal 3 true; RVal 4 true; RVal 0 false; RVal 0 false; RVal 0 false; RVal 0 false] /\
  treeLen t = 5%N /\ treeGet h t (B "w") = Ok (9, true) /\ treeGet h t (B "x") = Ok (0, false) /\ treeGet h t (B "ab") = Ok (0, false).
Proof.
  split; [plain|]. split; [apply roomy_ops_small; cbn; lia|]. do 3 eexists. split; [apply build_intro; vc|]. vc; done.
Qed.
(** All Deletes report a value; the tree is emptied with Len 1 and grows again. *)
Definition ex_grow : list (op nat) := [I "a" 1; I "ab" 2; I "a" 3; D "a"; D "ab"; I "b" 4; I "bc" 5; D "b"].
Example ex_C60_complete : Forall plain_op ex_grow /\ roomy_ops ex_grow /\ exists h t rs, build ex_grow h t rs /\
  (forall i k, ex_grow !! i = Some (ODelete k) -> exists w, rs !! i = Some (RVal w true)) /\
  treeLen t = 2%N /\ treeGet h t (B "bc") = Ok (5, true) /\ treeGet h t (B "b") = Ok (0, false).
Proof.
  split; [plain|]. split; [apply roomy_ops_small; cbn; lia|]. do 3 eexists. split; [apply build_intro; vc|].
  split; [|vc; done]. intros i k Hi. vm_compute. do 8 (destruct i as [|i]; [first [by vm_compute in Hi|eauto]|]). done.
Qed.
