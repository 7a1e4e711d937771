(** Transactions and trees for histories in which Delete may be called with absent keys: every tree of such a
    history holds a map, either as an ordinary tree or below a root with an empty stored key (Ghost.v). *)
From Verif Require Export Ghost.
From stdpp Require Export list.
Local Open Scope nat_scope.

Section Ghost2.
Context {V : Type} `{GoZero V}.
Notation art := (art V).
Notation TM := (M (st V)).
Notation HM := (M (heap V)).
Notation kmap := (gmap (list nat) V).

(** ** Starting a transaction *)
Lemma ghost_newTxn (m : kmap) h tr : ghost h (r_root tr) m ->
  exists r h', enewTxn tr h = (Ok (mkTx r (r_size tr) (r_max tr) (r_size tr) (r_max tr) false []), h') /\ ghost h' r m.
Proof.
  intros Hg. pose proof Hg as Hg0. destruct Hg as (la & z & kids & Hr & Hne & Hnd & Hc). unfold enewTxn, ecloneN, bind, hloadN, hallocN.
  pose proof Hr as Hr0. apply rep_inv in Hr as (n & Hn & Hlt & He & Hpl & Hlf & Hk1 & Hk2 & Hk3 & Hst & Hkids).
  change (h_nodes (rnh h)) with (h_nodes h) in Hn. rewrite Hn. eexists _, _. split; [reflexivity|].
  set (s := mkS (rnh h) (mkTx 0 0%N 0 0%N 0 false [])). set (n' := set_partial _ _).
  assert (HU : upd none s (alN s n')) by apply upd_alN, upd_refl.
  assert (Hn' : n' = n) by (unfold n'; rewrite clonePartial_id by done; by destruct n).
  exists la, z, kids. split; [|split; [done|split; [|exact Hc]]].
  - change (rnh _) with (s_h (alN s n')).
    eapply (rep_copy s (alN s n') none [] (r_root tr) [] _ kids n); [exact Hr0|exact Hn|cbn; apply lookup_insert|cbn; lia| |exact HU|apply not_none].
    rewrite Hn'. done.
  - pose proof (rep_fpx _ _ _ Hr0) as Hfp. rewrite fp_eq in Hnd, Hfp |- *. apply NoDup_cons in Hnd as [_ Hnd]. apply NoDup_cons. split; [|done].
    intros Hx. assert (h_next h < h_next h); [change (h_next h) with (h_next (rnh h)); apply Hfp; by right|lia].
Qed.
Lemma whold_newTxn (m : kmap) h tr : whold false h (r_root tr) m ->
  exists r h', enewTxn tr h = (Ok (mkTx r (r_size tr) (r_max tr) (r_size tr) (r_max tr) false []), h') /\ whold true h' r m.
Proof.
  intros [Hh|Hg].
  - destruct (enewTxn_spec false h tr m Hh) as (r & h' & E & Hh'). exists r, h'. split; [done|]. by left.
  - destruct (ghost_newTxn m h tr Hg) as (r & h' & E & Hh'). exists r, h'. split; [done|]. by right.
Qed.

(** ** The updates of a transaction *)
Definition wstate (b : bool) (s : st V) (m : kmap) (x : nat) : Prop :=
  whold b (s_h s) (t_root (s_t s)) m /\ t_size (s_t s) = N.of_nat (size m + x) /\ t_tsize (s_t s) = N.of_nat (size m + x).

Lemma whold_weaken (m : kmap) b h a : whold b h a m -> whold false h a m.
Proof. intros [Hh|Hg]; [left; by eapply holds_weaken|by right]. Qed.

Lemma ghost_ins_done (m : kmap) x k v s s' r : t_size (s_t s) = N.of_nat (size m + x) -> t_tsize (s_t s) = N.of_nat (size m + x) ->
  (N.of_nat (S (size m + x)) < 2 ^ 64)%N -> gins_post s m k v r s' ->
  wp (let '(newRoot, oldVal, _, old) := r in
      let! t := getT in
      let t := if old then t else set_t_tsize (set_t_size t (u64_incr (t_size t))) (u64_incr (t_tsize t)) in
      putT (set_t_root t newRoot) ;;; ret (oldVal, old)) (fun r s' => exists x', wstate false s' (<[k := v]> m) x' /\ ins_size m x k r x') s'.
Proof.
  intros Hsz Htsz Hlt. destruct r as [[[r1 old] fl] ob]. intros (_ & Hg & (mx & Et) & Hrep). cbn [fst snd] in Hg, Hrep.
  apply wp_bind, wp_getT. apply wp_bind, wp_putT, wp_ret.
  destruct ob.
  - exists x. split; [|unfold ins_size; rewrite Hrep; by left].
    split; [by right|]. rewrite (size_insert_old _ _ _ _ Hrep). cbn. rewrite Et. done.
  - destruct Hrep as [-> Hrep]. destruct (m !! k) as [w|] eqn:Hm.
    + destruct Hrep as [|Hrep]; [done|]. exists (S x). split; [|unfold ins_size; rewrite Hm; by right].
      split; [by right|]. rewrite (size_insert_old _ _ _ _ Hm). cbn. rewrite Et. cbn. rewrite Hsz, Htsz.
      rewrite u64_incr_nat by done. rewrite Nat.add_succ_r. done.
    + exists x. split; [|unfold ins_size; by rewrite Hm].
      split; [by right|]. rewrite (size_insert_new _ _ _ Hm). cbn. rewrite Et. cbn. rewrite Hsz, Htsz.
      rewrite u64_incr_nat by done. done.
Qed.
Lemma etxnInsert_whold (m : kmap) s x k v : wstate true s m x -> valid_key k -> k <> [] -> (N.of_nat (S (size m + x)) < 2 ^ 64)%N ->
  wp (etxnInsert k v) (fun r s' => exists x', wstate false s' (<[k := v]> m) x' /\ ins_size m x k r x') s.
Proof.
  intros (Hw & Hsz & Htsz) Hv Hkne Hlt.
  assert (Hold : tstate true s m x -> wp (etxnInsert k v) (fun r s' => exists x', wstate false s' (<[k := v]> m) x' /\ ins_size m x k r x') s).
  { intros Ht. eapply wp_mono; [by eapply etxnInsert_spec|]. intros r s' (x' & (H1 & H2 & H3 & _) & Hr). exists x'. split; [|done].
    split; [by left|done]. }
  destruct Hw as [Hh|Hg].
  - destruct (decide (m = ∅)) as [->|Hne]; [|apply Hold; split; [done|split; [done|split; [done|done]]]].
    destruct (decide (x = 0)) as [->|Hx]; [apply Hold; split; [done|split; [done|split; [done|done]]]|].
    assert (Hp : phantom true (s_h s) (t_root (s_t s))).
    { destruct Hh as [_ Hp|t Hr _ _ Hc]; [done|by destruct (contents_ne _ _ _ _ Hr Hc)]. }
    unfold etxnInsert, insert_fuel. apply wp_bind, wp_getT.
    replace (2 * length (getTreeKey k) + 4) with (S (2 * length (getTreeKey k) + 3)) by lia.
    eapply wp_use; [apply ghost_first; [done|done|done|rewrite Htsz, map_size_empty; lia]|].
    intros r s' Hr. by eapply ghost_ins_done.
  - unfold etxnInsert, insert_fuel. apply wp_bind, wp_getT.
    assert (Hpos : size m <> 0) by (intros E%map_size_empty_iff; by eapply ghost_ne).
    eapply wp_use; [apply ghost_insert; [exact Hg|done|done|rewrite Htsz; lia|lia]|].
    intros r s' Hr. by eapply ghost_ins_done.
Qed.

Lemma etxnDelete_whold (m : kmap) b s x k w : wstate b s m x -> m !! k = Some w -> roomy m -> (N.of_nat (size m + x) < 2 ^ 64)%N ->
  wp (etxnDelete k) (fun r s' => wstate false s' (delete k m) x /\ r = (w, true)) s.
Proof.
  intros (Hw & Hsz & Htsz) Hm Hroom Hlt. destruct Hw as [Hh|Hg].
  - eapply wp_mono; [by eapply etxnDelete_gen; eauto using roomy_deletable|]. intros r s' [(H1 & H2 & H3) ->]. split; [|done]. split; [by left|done].
  - unfold etxnDelete, delete_fuel. apply wp_bind, wp_getT.
    eapply wp_use; [apply ghost_delete; [exact Hg|exact Hm|exact Hroom|lia]|].
    intros [[nr lr] fl] s' [(a' & E1 & Hw' & mx & Et) (la & l & E2 & Hl & Hlw)]. cbn [fst snd] in E1, E2. subst nr lr. cbn beta iota.
    apply wp_bind, wp_bind, wp_getT. apply wp_putT. apply wp_bind, wp_getT. apply wp_bind, wp_getT. apply wp_bind, wp_putT.
    apply wp_bind. eapply wp_loadL; [exact Hl|]. apply wp_ret. split; [|by rewrite Hlw].
    assert (Hdel : size (delete k m) = pred (size m)) by (rewrite map_size_delete, Hm; lia).
    assert (Hpos : size m <> 0) by (intros E%map_size_empty_iff; by eapply ghost_ne).
    split; [by eapply whold_weaken|]. cbn. rewrite Et. cbn. rewrite Hsz, Htsz.
    replace (size m + x) with (S (size (delete k m) + x)) in * by lia. rewrite u64_decr_nat by done. done.
Qed.

Lemma etxnDelete_lost (m : kmap) b s k : whold b (s_h s) (t_root (s_t s)) m -> valid_key k -> m !! k = None -> roomy m ->
  pp (etxnDelete k) (fun r s' => r = (go_zero, false) /\ t_size (s_t s') = t_size (s_t s) /\ exists q,
    whold false (s_h s') (t_root (s_t s')) (cut q m) /\ (nearM m k -> q `prefix_of` (k ++ [dollar]))) s.
Proof.
  intros [Hh|Hg] Hv Hm Hroom.
  - eapply pp_mono; [by eapply etxnDelete_absent|]. intros r s' (H1 & H2 & q & H3 & H4). split; [done|]. split; [done|]. exists q. split; [by left|done].
  - unfold etxnDelete, delete_fuel. apply pp_bind, pp_wp, wp_getT.
    eapply pp_use; [apply ghost_absent; [exact Hg|exact Hv|exact Hm|exact Hroom|lia]|].
    intros [[nr lr] fl] s' (E2 & q & Hq & Hnr). cbn [fst snd] in E2, Hnr. subst lr. cbn beta iota. destruct nr as [a1|].
    + destruct Hnr as (a' & [= <-] & Hw' & mx & Et). apply pp_bind, pp_wp. apply wp_bind, wp_getT. apply wp_putT. apply pp_ret.
      split; [done|]. split; [cbn; by rewrite Et|]. exists q. split; [by eapply whold_weaken|done].
    + destruct Hnr as (Hem & mx & Et). apply pp_bind, pp_wp. apply installEmptyRoot_phantom. intros s2 Hph E1 E2. apply pp_ret.
      split; [done|]. split; [rewrite E1, Et; done|]. exists q. split; [|done]. left. by apply holds_empty.
Qed.

(** ** Trees *)
Lemma cut_size (m : kmap) q : size (cut q m) <= size m.
Proof.
  rewrite <- !(size_dom (D := gset (list nat))). apply subseteq_size, subseteq_dom, map_filter_subseteq.
Qed.
Definition wtree (h : heap V) (t : rtree) (m : kmap) (x : nat) : Prop :=
  whold false h (r_root t) m /\ r_size t = N.of_nat (size m + x).

Lemma wtree_get (m : kmap) h t x k : wtree (er_h h) t m x -> is_bytes k -> treeGet h t k = Ok (ref_get m k).
Proof.
  intros [[Hh|Hg] _] Hk; unfold treeGet; rewrite <- er_getFrom; [by eapply holds_get|by apply ghost_get].
Qed.
Lemma ewithTxn_wtree (m : kmap) {A} h t x (e : TM A) Q : wtree h t m x -> (forall s, wstate true s m x -> wp e Q s) ->
  wp (ewithTxn t e) (fun r h' => exists s, Q r.2 s /\ r.1 = commitOnly (s_t s) /\ h' = s_h s) h.
Proof.
  intros (Hh & Hsz) He. unfold wp, ewithTxn.
  destruct (whold_newTxn m h t Hh) as (r & h1 & E & Hh1). rewrite E.
  set (s1 := mkS h1 _). assert (Ht : wstate true s1 m x) by (split; [exact Hh1|done]).
  apply He in Ht. apply wp_elim in Ht as (a & s2 & E2 & HQ). rewrite E2. exists s2. done.
Qed.
Lemma treeInsert_wtree (m : kmap) h t x k v : wtree (er_h h) t m x -> valid_key k -> k <> [] -> (N.of_nat (S (size m + x)) < 2 ^ 64)%N ->
  wp (treeInsert t k v) (fun r h' => exists x', wtree (er_h h') r.1 (<[k := v]> m) x' /\ ins_size m x k r.2 x') h.
Proof.
  intros Hok Hv Hkne Hlt. eapply wp_mono; [eapply hsim_wp; [apply hsim_withTxn, sim_txnInsert|]|].
  - eapply ewithTxn_wtree; [exact Hok|]. intros s Hs. by eapply etxnInsert_whold.
  - intros [t' r] h' (s & (x' & (Hs & Hsz & _) & Hr') & E1 & E2). cbn [fst snd] in *. exists x'. split; [|done]. rewrite E2, E1. done.
Qed.
Lemma treeDelete_wtree (m : kmap) h t x k w : wtree (er_h h) t m x -> m !! k = Some w -> roomy m -> (N.of_nat (size m + x) < 2 ^ 64)%N ->
  wp (treeDelete t k) (fun r h' => wtree (er_h h') r.1 (delete k m) x /\ r.2 = (w, true)) h.
Proof.
  intros Hok Hm Hroom Hlt. eapply wp_mono; [eapply hsim_wp; [apply hsim_withTxn, sim_txnDelete|]|].
  - eapply ewithTxn_wtree; [exact Hok|]. intros s Hs. by eapply etxnDelete_whold.
  - intros [t' r] h' (s & ((Hs & Hsz & _) & Hr') & E1 & E2). cbn [fst snd] in *. split; [|done]. rewrite E2, E1. done.
Qed.
Lemma treeDelete_lost (m : kmap) h t x k : wtree (er_h h) t m x -> valid_key k -> m !! k = None -> roomy m ->
  pp (treeDelete t k) (fun r h' => r.2 = (go_zero, false) /\ exists q, (nearM m k -> q `prefix_of` (k ++ [dollar])) /\
    wtree (er_h h') r.1 (cut q m) (x + (size m - size (cut q m)))) h.
Proof.
  intros (Hh & Hsz) Hv Hm Hroom. eapply pp_mono; [eapply (hsim_pp _ _ h (fun r h' => r.2 = (go_zero, false) /\ exists q, (nearM m k -> q `prefix_of` (k ++ [dollar])) /\
    wtree h' r.1 (cut q m) (x + (size m - size (cut q m))))); [apply hsim_withTxn, sim_txnDelete|]|done].
  intros [t' r] h' E. unfold ewithTxn in E. destruct (whold_newTxn m _ t Hh) as (r1 & h1 & E1 & Hh1). rewrite E1 in E.
  set (s1 := mkS h1 _) in *. destruct (etxnDelete k s1) as [[a| |] s2] eqn:E2; [|done..]. injection E as <- <- <-.
  destruct (etxnDelete_lost m true s1 k Hh1 Hv Hm Hroom _ _ E2) as (-> & Es & q & Hw & Hq). split; [done|]. exists q. split; [done|].
  split; [exact Hw|]. cbn [fst]. change (r_size _) with (t_size (s_t s2)). rewrite Es. cbn. rewrite Hsz. f_equal.
  pose proof (cut_size m q). lia.
Qed.
End Ghost2.
