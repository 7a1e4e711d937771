(** Histories on a single line of trees refine the reference map. *)
From Verif Require Export Top SpecDom.
From stdpp Require Export list.
Local Open Scope nat_scope.

Section Linear.
Context {V : Type} `{GoZero V} {D : KeyDom}.
Notation TM := (M (st V)).
Notation HM := (M (heap V)).
Notation kmap := (gmap (list nat) V).

Definition etxnOp (o : op V) : TM (result V) :=
  match o with
  | OInsert k v => let! p := etxnInsert k v in ret (RVal p.1 p.2)
  | ODelete k => let! p := etxnDelete k in ret (RVal p.1 p.2)
  | ODeletePrefix k => let! b := etxnDeletePrefix k in ret (RBool b)
  end.
Fixpoint etxnOps (os : list (op V)) : TM (list (result V)) :=
  match os with
  | [] => ret []
  | o :: os' => let! r := etxnOp o in let! rs := etxnOps os' in ret (r :: rs)
  end.
Lemma sim_txnOp o : sim id (txnOp o) (etxnOp o).
Proof.
  destruct o; cbn; (eapply (sim_bind id); [first [apply sim_txnInsert|apply sim_txnDelete|apply sim_txnDeletePrefix]|]); intros a; by apply sim_ret.
Qed.
Lemma sim_txnOps os : sim id (txnOps os) (etxnOps os).
Proof.
  induction os as [|o os IH]; cbn; [by apply sim_ret|]. eapply (sim_bind id); [apply sim_txnOp|]. intros r.
  eapply (sim_bind id); [apply IH|]. intros rs. by apply sim_ret.
Qed.
Lemma etxnOps_snoc os o s : etxnOps (os ++ [o]) s = (let! rs := etxnOps os in let! r := etxnOp o in ret (rs ++ [r])) s.
Proof.
  revert s. induction os as [|o' os IH]; intros s; cbn [etxnOps app].
  - unfold bind, ret. destruct (etxnOp o s) as [[]?]; done.
  - unfold bind in *. destruct (etxnOp o' s) as [[r| |] s1]; [|done..]. rewrite IH. destruct (etxnOps os s1) as [[rs| |] s2]; [|done..].
    unfold ret. destruct (etxnOp o s2) as [[]?]; done.
Qed.

Lemma ref_ops_snoc os (o : op V) m : ref_ops (os ++ [o]) m = ref_op o (ref_ops os m).
Proof. unfold ref_ops. by rewrite foldl_app. Qed.
Lemma ref_ops_app (os os' : list (op V)) (m : kmap) : ref_ops (os ++ os') m = ref_ops os' (ref_ops os m).
Proof. unfold ref_ops. by rewrite foldl_app. Qed.
Lemma results_snoc m os rs (o : op V) r : results_ok m os rs -> result_ok (ref_ops os m) o r -> results_ok m (os ++ [o]) (rs ++ [r]).
Proof.
  intros [Hl Hr] Ho. split; [rewrite !app_length; cbn; lia|]. intros i o' r' H1 H2.
  destruct (decide (i < length os)) as [Hi|Hi].
  - rewrite lookup_app_l in H1 by lia. rewrite lookup_app_l in H2 by lia. rewrite take_app_le by lia. by eapply Hr.
  - rewrite lookup_app_r in H1 by lia. rewrite lookup_app_r in H2 by lia. rewrite Hl in H2. destruct (i - length os) as [|j] eqn:Ej; [|done].
    injection H1 as <-. injection H2 as <-. assert (i = length os) as -> by lia. by rewrite take_app.
Qed.
Lemma results_app m os rs os' rs' : results_ok (V:=V) m os rs -> results_ok (ref_ops os m) os' rs' -> results_ok m (os ++ os') (rs ++ rs').
Proof.
  intros [Hl Hr] [Hl' Hr']. split; [rewrite !app_length; lia|]. intros i o r H1 H2.
  destruct (decide (i < length os)) as [Hi|Hi].
  - rewrite lookup_app_l in H1 by lia. rewrite lookup_app_l in H2 by lia. rewrite take_app_le by lia. by eapply Hr.
  - rewrite lookup_app_r in H1 by lia. rewrite lookup_app_r in H2 by lia. rewrite Hl in H2. rewrite take_app_ge by lia. rewrite ref_ops_app. by eapply Hr'.
Qed.

Lemma holds_weaken (m : kmap) b h a : holds b h a m -> holds false h a m.
Proof.
  intros [-> (n & la & l & Hn & Hlt & He & Hpl & Hch & Hlf & Hlalt & Hl & Hlk & Hne & _ & Hk4)|t]; [|by eapply holds_tree].
  apply holds_empty; [done|]. eexists n, la, l. split_and!; try done. 
Qed.
Lemma tstate_weaken (m : kmap) b s x : tstate b s m x -> tstate false s m x.
Proof. intros (Hh & Hr). split; [by eapply holds_weaken|done]. Qed.

Lemma etxnOp_over (m : kmap) b s x d o d' : tstate b s m x -> x <= d -> tame_op_over kd m d o d' ->
  (m = ∅ -> (exists k v, o = OInsert k v) -> b = true) -> (N.of_nat (S (size m + x)) < 2 ^ 64)%N ->
  wp (etxnOp o) (fun r s' => exists x', tstate false s' (ref_op o m) x' /\ x' <= d' /\ size (ref_op o m) + x' <= S (size m + x) /\ result_ok m o r) s.
Proof.
  intros Ht Hx Htm Hb Hlt. destruct o as [k v|k|k]; cbn [etxnOp ref_op tame_op_over result_ok] in *.
  - destruct Htm as [Hv Hd]. eapply wp_use; [apply (etxnInsert_spec b s m x k v Ht Hv); eauto|].
    intros r s' (x' & Ht' & Hi). apply wp_ret. exists x'. split; [done|]. unfold ins_size, ref_get in *.
    destruct (m !! k) as [w|] eqn:Hm.
    + rewrite (size_insert_old _ _ _ _ Hm). destruct Hi as [[-> ->]|(-> & -> & Hsh)].
      * split; [lia|]. split; [lia|]. by left.
      * split; [|split; [lia|by right]]. destruct Hd as [[Hns _]|[_ ->]]; [done|lia].
    + rewrite (size_insert_new _ _ _ Hm). destruct Hi as [-> ->]. split; [lia|]. split; [lia|]. by left.
  - destruct Htm as ([w Hw] & Hroom & -> & Hd0). eapply wp_use.
    { eapply (etxnDelete_spec b s m x k w Ht Hw Hroom); [|lia]. destruct Hd0 as [->|]; [left; lia|by right]. }
    intros r s' [Ht' ->]. apply wp_ret. exists x. split; [done|]. split; [done|]. unfold ref_get. rewrite Hw. split; [|done].
    rewrite map_size_delete, Hw. lia.
  - done.
Qed.

Lemma etxnOps_over (m : kmap) s x d os d' : tame_in_over kd m d os d' -> tstate true s m x -> x <= d -> (N.of_nat (size m + x + length os) < 2 ^ 64)%N ->
  wp (etxnOps os) (fun rs s' => exists x', tstate (bool_decide (os = [])) s' (ref_ops os m) x' /\ x' <= d' /\
     size (ref_ops os m) + x' <= size m + x + length os /\ results_ok m os rs) s.
Proof.
  intros Hin Ht Hx. induction Hin as [|os d1 o d2 Hin IH Hop Hne]; intros Hlt.
  - apply wp_ret. exists x. rewrite bool_decide_eq_true_2 by done. cbn. split; [done|]. split; [done|]. split; [lia|]. split; [done|]. by intros [].
  - unfold wp. rewrite etxnOps_snoc. rewrite app_length in Hlt. cbn [length] in Hlt.
    change (wp (let! rs := etxnOps os in let! r := etxnOp o in ret (rs ++ [r]))
      (fun rs s' => exists x', tstate (bool_decide (os ++ [o] = [])) s' (ref_ops (os ++ [o]) m) x' /\ x' <= d2 /\
         size (ref_ops (os ++ [o]) m) + x' <= size m + x + length (os ++ [o]) /\ results_ok m (os ++ [o]) rs) s).
    eapply wp_use; [apply IH; lia|]. intros rs s1 (x1 & Ht1 & Hx1 & Hs1 & Hr1). cbn beta.
    eapply wp_use; [eapply etxnOp_over; [exact Ht1|exact Hx1|exact Hop| |lia]|].
    { intros E (k & v & ->). apply bool_decide_eq_true. destruct os as [|o' os]; [done|]. exfalso. by apply (Hne ltac:(done) E k v). }
    intros r s2 (x2 & Ht2 & Hx2 & Hs2 & Hr2). apply wp_ret. exists x2. rewrite ref_ops_snoc, app_length. cbn [length].
    rewrite bool_decide_eq_false_2 by (by destruct os). split; [done|]. split; [done|]. split; [lia|]. by apply results_snoc.
Qed.

(** ** Trees *)
(** The tree value t in memory h holds m; Len counts x updates too many. *)
Definition tree_ok (h : heap V) (t : rtree) (m : kmap) (x : nat) : Prop :=
  holds false h (r_root t) m /\ r_size t = N.of_nat (size m + x) /\ (m = ∅ -> x = 0).

Lemma ewithTxn_over (m : kmap) h t x d os d' : tree_ok h t m x -> tame_in_over kd m d os d' -> x <= d -> (N.of_nat (size m + x + length os) < 2 ^ 64)%N ->
  wp (ewithTxn t (etxnOps os)) (fun r h' => exists x', tree_ok h' r.1 (ref_ops os m) x' /\ x' <= d' /\
     size (ref_ops os m) + x' <= size m + x + length os /\ results_ok m os r.2) h.
Proof.
  intros (Hh & Hsz & Hx) Hin Hxd Hlt. unfold wp, ewithTxn.
  destruct (enewTxn_spec false h t m Hh) as (r & h1 & E & Hh1). rewrite E.
  set (s1 := mkS h1 _). assert (Ht : tstate true s1 m x) by (split; [exact Hh1|done]).
  pose proof (etxnOps_over m s1 x d os d' Hin Ht Hxd Hlt) as Hw. apply wp_elim in Hw as (rs & s2 & E2 & x' & Ht2 & Hx2 & Hs2 & Hr2).
  rewrite E2. exists x'. split; [|done]. apply tstate_weaken in Ht2. destruct Ht2 as (H1 & H2 & _ & H4). done.
Qed.
Lemma ewithTxn_wp (m : kmap) {A} h t x (e : TM A) Q : tree_ok h t m x -> (forall s, tstate true s m x -> wp e Q s) ->
  wp (ewithTxn t e) (fun r h' => exists s, Q r.2 s /\ r.1 = commitOnly (s_t s) /\ h' = s_h s) h.
Proof.
  intros (Hh & Hsz & Hx) He. unfold wp, ewithTxn.
  destruct (enewTxn_spec false h t m Hh) as (r & h1 & E & Hh1). rewrite E.
  set (s1 := mkS h1 _). assert (Ht : tstate true s1 m x) by (split; [exact Hh1|done]).
  apply He in Ht. apply wp_elim in Ht as (a & s2 & E2 & HQ). rewrite E2. exists s2. done.
Qed.
Lemma tstate_tree (m : kmap) s b x : tstate b s m x -> tree_ok (s_h s) (commitOnly (s_t s)) m x.
Proof. intros Ht%tstate_weaken. destruct Ht as (H1 & H2 & _ & H4). done. Qed.
Lemma hsim_wp {A} (m m0 : HM A) h Q : hsim id m m0 -> wp m0 Q (er_h h) -> wp m (fun a h' => Q a (er_h h')) h.
Proof.
  intros Hs Hw. specialize (Hs h). unfold wp in *. rewrite <- Hs in Hw. destruct (m h) as [[a| |] h']; cbn in *; try done.
Qed.
Lemma tree_ok_get (m : kmap) h t x k : tree_ok (er_h h) t m x -> is_bytes k -> treeGet h t k = Ok (ref_get m k).
Proof. intros (Hh & _) Hk. unfold treeGet. rewrite <- er_getFrom. by eapply holds_get. Qed.

Lemma withTxn_over (m : kmap) h t x d os d' : tree_ok (er_h h) t m x -> tame_in_over kd m d os d' -> x <= d -> (N.of_nat (size m + x + length os) < 2 ^ 64)%N ->
  wp (withTxn t (txnOps os)) (fun r h' => exists x', tree_ok (er_h h') r.1 (ref_ops os m) x' /\ x' <= d' /\
     size (ref_ops os m) + x' <= size m + x + length os /\ results_ok m os r.2) h.
Proof.
  intros Ht Hin Hx Hlt. eapply wp_mono; [eapply hsim_wp; [apply hsim_withTxn, sim_txnOps|by eapply ewithTxn_over]|]. done.
Qed.
Lemma newTree_spec (h : heap V) : wp newTree (fun t h' => tree_ok (er_h h') t ∅ 0) h.
Proof.
  unfold wp, newTree, bind, hallocL, hallocN. cbn. split; [|done]. apply holds_empty; [done|].
  eexists _, (h_next h), _. cbn. rewrite !fmap_insert, !lookup_insert. split; [done|]. split; [lia|].
  split; [eapply enc_same; [|apply (enc_zero4 0)]; done|]. split; [done|]. split.
  { intros i c. cbn. do 4 (destruct i as [|i]; [done|]). done. }
  split; [done|]. split; [lia|]. split; [done|]. split; [done|]. split; [lia|]. done.
Qed.

Lemma treeTxns_snoc oss os (t : rtree) h : treeTxns (V:=V) (oss ++ [os]) t h =
  (let! p := treeTxns oss t in let! q := withTxn p.1 (txnOps os) in ret (q.1, p.2 ++ q.2)) h.
Proof.
  revert t h. induction oss as [|os' oss IH]; intros t h; cbn [treeTxns app].
  - unfold bind, ret. cbn [fst snd]. destruct (withTxn t (txnOps os) h) as [[[t' rs]| |]?]; cbn; [|done..]. by rewrite app_nil_r.
  - unfold bind in *. destruct (withTxn t (txnOps os') h) as [[[t' r]| |] h1]; [|done..]. cbn [fst snd]. rewrite IH.
    destruct (treeTxns oss t' h1) as [[[t2 rs]| |] h2]; [|done..]. cbn [fst snd].
    unfold ret. cbn [fst snd]. destruct (withTxn t2 (txnOps os) h2) as [[[t3 rs3]| |]?]; [|done..]. cbn. by rewrite app_assoc.
Qed.

Lemma treeTxns_over h t oss d : tame_txns_over kd oss d -> tree_ok (er_h h) t (∅ : kmap) 0 -> (N.of_nat (length (concat oss)) < 2 ^ 64)%N ->
  wp (treeTxns oss t) (fun r h' => exists x, tree_ok (er_h h') r.1 (ref_ops (concat oss) ∅) x /\ x <= d /\
     size (ref_ops (concat oss) (∅ : kmap)) + x <= length (concat oss) /\ results_ok ∅ (concat oss) r.2) h.
Proof.
  intros Hin Ht. induction Hin as [|oss d os d' Hin IH Hos]; intros Hlt.
  - apply wp_ret. exists 0. cbn. split; [done|]. split; [done|]. split; [by rewrite map_size_empty|]. split; [done|]. by intros [].
  - unfold wp. rewrite treeTxns_snoc. 
    change (wp (let! p := treeTxns oss t in let! q := withTxn p.1 (txnOps os) in ret (q.1, p.2 ++ q.2))
      (fun r h' => exists x, tree_ok (er_h h') r.1 (ref_ops (concat (oss ++ [os])) ∅) x /\ x <= d' /\
         size (ref_ops (concat (oss ++ [os])) (∅ : kmap)) + x <= length (concat (oss ++ [os])) /\ results_ok ∅ (concat (oss ++ [os])) r.2) h).
    rewrite concat_app in *. cbn [concat] in *. rewrite app_nil_r in *. rewrite app_length in *.
    eapply wp_use; [apply IH; lia|]. intros [t1 rs1] h1 (x1 & Ht1 & Hx1 & Hs1 & Hr1). cbn [fst snd] in *.
    eapply wp_use; [eapply withTxn_over; [exact Ht1|exact Hos|exact Hx1|lia]|].
    intros [t2 rs2] h2 (x2 & Ht2 & Hx2 & Hs2 & Hr2). cbn [fst snd] in *. apply wp_ret. exists x2. cbn [fst snd]. rewrite ref_ops_app.
    split; [done|]. split; [done|]. split; [lia|]. by apply results_app.
Qed.

(** One update per transaction. *)
Lemma treeOps_txns os (t : rtree) h : treeOps os t h = treeTxns (V:=V) ((fun o => [o]) <$> os) t h.
Proof.
  revert t h. induction os as [|o os IH]; intros t h; [done|]. cbn [treeOps treeTxns fmap list_fmap].
  unfold bind in *. assert (E : treeOp o t h = match withTxn t (txnOps [o]) h with
    | (Ok (t', rs), h') => match rs with r :: _ => (Ok (t', r), h') | [] => (Panic, h') end
    | (Panic, h') => (Panic, h') | (NoFuel, h') => (NoFuel, h') end /\
    forall t' rs h', withTxn t (txnOps [o]) h = (Ok (t', rs), h') -> exists r, rs = [r]).
  { destruct o as [k v|k|k]; unfold treeOp, treeInsert, treeDelete, treeDeletePrefix, withTxn, txnOps, txnOp, bind, ret;
      (destruct (newTxn t h) as [[tx| |] h1]; [|split; [done|]; by intros..]);
      [destruct (txnInsert k v (mkS h1 tx)) as [[[]| |] s]|destruct (txnDelete k (mkS h1 tx)) as [[[]| |] s]|destruct (txnDeletePrefix k (mkS h1 tx)) as [[| |] s]].
    all: cbn [fst snd]; try (split; [done|]; by intros).
    all: destruct (commit s) as [[t'| |] s']; cbn [fst snd]; try (split; [done|]; by intros).
    all: split; [done|]; intros ? ? ? [= <- <- <-]; eauto. }
  destruct E as [E Er]. rewrite E. destruct (withTxn t (txnOps [o]) h) as [[[t' rs]| |] h']; [|done..].
  destruct (Er _ _ _ eq_refl) as [r ->]. cbn [fst snd]. rewrite IH. destruct (treeTxns _ t' h') as [[[]| |]?]; done.
Qed.
Lemma concat_singletons os : concat ((fun o : op V => [o]) <$> os) = os.
Proof. induction os as [|o os IH]; [done|]. cbn. by f_equal. Qed.
Lemma tame_txns_over_of os d : tame_over (V:=V) kd os d -> tame_txns_over kd ((fun o => [o]) <$> os) d.
Proof.
  induction 1 as [|os d o d' Ht IH Ho]; [constructor|]. rewrite fmap_app. cbn. eapply tame_txns_over_snoc; [exact IH|].
  rewrite concat_singletons. apply (tame_in_over_snoc _ _ _ [] d o d'); [constructor|done|done].
Qed.

Lemma build_txns_over oss d : tame_txns_over (V:=V) kd oss d -> (N.of_nat (length (concat oss)) < 2 ^ 64)%N ->
  exists h t rs x, build_txns oss h t rs /\ tree_ok (er_h h) t (ref_ops (concat oss) ∅) x /\ x <= d /\
    results_ok ∅ (concat oss) rs /\ size (ref_ops (concat oss) (∅ : kmap)) + x <= length (concat oss).
Proof.
  intros Ht Hl. assert (Hw : wp (let! t0 := newTree in treeTxns oss t0) (fun r h' => exists x, tree_ok (er_h h') r.1 (ref_ops (concat oss) ∅) x /\ x <= d /\
     size (ref_ops (concat oss) (∅ : kmap)) + x <= length (concat oss) /\ results_ok ∅ (concat oss) r.2) h_init).
  { eapply wp_use; [apply newTree_spec|]. intros t h Hok. by eapply treeTxns_over. }
  apply wp_elim in Hw as ([t rs] & h & E & x & H1 & H2 & H3 & H4). exists h, t, rs, x. done.
Qed.
Lemma build_over os d : tame_over (V:=V) kd os d -> (N.of_nat (length os) < 2 ^ 64)%N ->
  exists h t rs x, build os h t rs /\ tree_ok (er_h h) t (ref_ops os ∅) x /\ x <= d /\
    results_ok ∅ os rs /\ size (ref_ops os (∅ : kmap)) + x <= length os.
Proof.
  intros Ht Hl. destruct (build_txns_over _ _ (tame_txns_over_of os d Ht)) as (h & t & rs & x & Hb & H1 & H2 & H3); rewrite ?concat_singletons in *; [done|].
  exists h, t, rs, x. split; [|done]. unfold build, build_txns, bind in *. destruct (newTree h_init) as [[t0| |] h0]; [|done..]. by rewrite treeOps_txns.
Qed.
End Linear.

(** ** The keys without '$' *)
Section Valid.
Context {V : Type} `{GoZero V}.
Notation kmap := (gmap (list nat) V).

Lemma etxnOp_spec (m : kmap) b s x d o d' : tstate b s m x -> x <= d -> tame_op m d o d' ->
  (m = ∅ -> (exists k v, o = OInsert k v) -> b = true) -> (N.of_nat (S (size m + x)) < 2 ^ 64)%N ->
  wp (etxnOp o) (fun r s' => exists x', tstate false s' (ref_op o m) x' /\ x' <= d' /\ size (ref_op o m) + x' <= S (size m + x) /\ result_ok m o r) s.
Proof. intros. by eapply etxnOp_over. Qed.
Lemma etxnOps_spec (m : kmap) s x d os d' : tame_in m d os d' -> tstate true s m x -> x <= d -> (N.of_nat (size m + x + length os) < 2 ^ 64)%N ->
  wp (etxnOps os) (fun rs s' => exists x', tstate (bool_decide (os = [])) s' (ref_ops os m) x' /\ x' <= d' /\
     size (ref_ops os m) + x' <= size m + x + length os /\ results_ok m os rs) s.
Proof. intros Hin%tame_in_valid. by apply etxnOps_over. Qed.
Lemma withTxn_spec (m : kmap) h t x d os d' : tree_ok (er_h h) t m x -> tame_in m d os d' -> x <= d -> (N.of_nat (size m + x + length os) < 2 ^ 64)%N ->
  wp (withTxn t (txnOps os)) (fun r h' => exists x', tree_ok (er_h h') r.1 (ref_ops os m) x' /\ x' <= d' /\
     size (ref_ops os m) + x' <= size m + x + length os /\ results_ok m os r.2) h.
Proof. intros Ht Hin%tame_in_valid. by eapply withTxn_over. Qed.
Lemma treeTxns_spec h t oss d : tame_txns oss d -> tree_ok (er_h h) t (∅ : kmap) 0 -> (N.of_nat (length (concat oss)) < 2 ^ 64)%N ->
  wp (treeTxns oss t) (fun r h' => exists x, tree_ok (er_h h') r.1 (ref_ops (concat oss) ∅) x /\ x <= d /\
     size (ref_ops (concat oss) (∅ : kmap)) + x <= length (concat oss) /\ results_ok ∅ (concat oss) r.2) h.
Proof. intros Hin%tame_txns_valid. by apply treeTxns_over. Qed.
Lemma tame_txns_of os d : tame (V:=V) os d -> tame_txns ((fun o => [o]) <$> os) d.
Proof.
  induction 1 as [|os d o d' Ht IH Ho]; [constructor|]. rewrite fmap_app. cbn. eapply tame_txns_snoc; [exact IH|].
  rewrite concat_singletons. apply (tame_in_snoc _ _ [] d o d'); [constructor|done|done].
Qed.
Lemma build_txns_spec oss d : tame_txns (V:=V) oss d -> (N.of_nat (length (concat oss)) < 2 ^ 64)%N ->
  exists h t rs x, build_txns oss h t rs /\ tree_ok (er_h h) t (ref_ops (concat oss) ∅) x /\ x <= d /\
    results_ok ∅ (concat oss) rs /\ size (ref_ops (concat oss) (∅ : kmap)) + x <= length (concat oss).
Proof. intros Hin%tame_txns_valid. by apply build_txns_over. Qed.
Lemma build_spec os d : tame (V:=V) os d -> (N.of_nat (length os) < 2 ^ 64)%N ->
  exists h t rs x, build os h t rs /\ tree_ok (er_h h) t (ref_ops os ∅) x /\ x <= d /\
    results_ok ∅ os rs /\ size (ref_ops os (∅ : kmap)) + x <= length os.
Proof. intros Hin%tame_valid. by apply build_over. Qed.
End Valid.
