(** Which histories leave inner nodes with a single child and no leaf. *)
From Verif Require Export Linear ReadRep SpecRead.
From stdpp Require Import list.
Local Open Scope nat_scope.

Section Thin.
Context {V : Type} `{GoZero V}.
Notation art := (art V).
Notation TM := (M (st V)).
Notation HM := (M (heap V)).
Notation kmap := (gmap (list nat) V).

(** The tree at address a holds m, and its thin nodes are only at the paths in D. *)
Definition slim (D : bytes -> Prop) (h : heap V) (a : addr) (m : kmap) : Prop :=
  m = ∅ \/ exists t, rep h [] t /\ NoDup (fp t) /\ a = aroot t /\ contents t m /\ forall w, thin [] t w -> D w.
Lemma slim_mono (D D' : bytes -> Prop) h a m : (forall w, D w -> D' w) -> slim D h a m -> slim D' h a m.
Proof. intros Hd [?|(t & H1 & H2 & H3 & H4 & H5)]; [by left|right]. exists t. split_and!; [done..|]. auto. Qed.

Lemma wp_and {S A} (m : M S A) P Q s : wp m P s -> wp m Q s -> wp m (fun a s' => P a s' /\ Q a s') s.
Proof. unfold wp. by destruct (m s) as [[a| |] s']. Qed.

Lemma enewTxn_slim D h tr m : slim D h (r_root tr) m -> forall r h', enewTxn tr h = (Ok r, h') -> slim D h' (t_root r) m.
Proof.
  intros [->|(t & Hr & Hnd & E & Hc & Hth)] r h' Eq; [by left|right]. unfold enewTxn, ecloneN, bind, hloadN, hallocN in Eq.
  assert (Hcl : forall n, h_nodes h !! r_root tr = Some n -> length (clonePartial (n_partial n)) = maxPrefixLen).
  { intros n _. unfold clonePartial, go_copy. rewrite !app_length, !take_length, drop_length, replicate_length. lia. }
  destruct t as [a pre lf kids]. cbn [aroot] in E. pose proof Hr as Hr0.
  apply rep_inv in Hr as (n & Hn & Hlt & He & Hpl & Hlf & Hk1 & Hk2 & Hk3 & Hst & Hkids). rewrite E, Hn in Eq. cbn in Eq. unfold ret in Eq. injection Eq as <- <-.
  set (s := mkS h (mkTx 0 0%N 0 0%N 0 false [])). set (n' := set_partial _ _).
  assert (HU : upd none s (alN s n')) by apply upd_alN, upd_refl.
  assert (Hn' : n' = n) by (unfold n'; rewrite clonePartial_id by done; by destruct n).
  exists (Art (h_next h) pre lf kids). split; [|split; [|split; [done|split; [exact Hc|]]]].
  + eapply (rep_copy s (alN s n') none [] a pre lf kids n); [exact Hr0|exact Hn|cbn; apply lookup_insert|cbn; lia| |exact HU|apply not_none].
    rewrite Hn'. done.
  + pose proof (rep_fpx _ _ _ Hr0) as Hfp. rewrite fp_eq in Hnd, Hfp |- *. apply NoDup_cons in Hnd as [_ Hnd]. apply NoDup_cons. split; [|done].
    intros Hx. assert (h_next h < h_next h); [apply Hfp; by right|lia].
  + intros w Hw. apply Hth. apply thin_inv in Hw as [(-> & Hl & ->)|(b & t & Hbt & Hw)]; [by apply thin_root|by eapply thin_kid].
Qed.

Lemma etxnInsert_slim D b (s : st V) m x k v : tstate b s m x -> slim D (s_h s) (t_root (s_t s)) m -> valid_key k -> (m = ∅ -> b = true) ->
  wp (etxnInsert k v) (fun _ s' => slim D (s_h s') (t_root (s_t s')) (<[k := v]> m)) s.
Proof.
  intros (Hh & Hsz & Htsz & Hx) Hsl Hv Hb. unfold etxnInsert, insert_fuel. apply wp_bind, wp_getT.
  pose proof (stored_tree k Hv) as Hst.
  destruct (decide (m = ∅)) as [->|Hne].
  - rewrite (Hx eq_refl) in *. cbn in Hsz, Htsz.
    assert (Hp : phantom true (s_h s) (t_root (s_t s))).
    { destruct Hh as [_ Hp|t Hr _ _ Hc]; [by rewrite <- (Hb eq_refl)|by destruct (contents_ne _ _ _ _ Hr Hc)]. }
    replace (2 * length (getTreeKey k) + 4) with (S (2 * length (getTreeKey k) + 3)) by lia.
    eapply wp_use; [by apply first_insert|]. intros r s' (t' & -> & Hr & Hnd & Hlv & Hnt & mx & Et). cbn beta iota.
    apply wp_bind, wp_getT. apply wp_bind, wp_putT, wp_ret. right. exists t'. split; [exact Hr|]. split; [done|]. split; [done|]. split.
    + intros k' v'. rewrite Hlv, elem_of_list_singleton. split.
      * intros [= -> ->]. exists k. by rewrite lookup_insert.
      * intros (k0 & -> & Hm). apply lookup_insert_Some in Hm as [[-> ->]|[_ Hm]]; [done|]. by rewrite lookup_empty in Hm.
    + intros w Hw. by destruct (Hnt w).
  - destruct Hsl as [?|(t & Hr & Hnd & Hroot & Hc & Hth)]; [done|]. rewrite Hroot.
    assert (Hts : t_tsize (s_t s) <> 0%N).
    { rewrite Htsz. intros E. apply Hne, map_size_empty_iff. lia. }
    eapply wp_use; [apply (proj1 (ins_main _) s [] t); [exact Hr|exact Hnd|exact Hst|apply prefix_nil|exact Hts|cbn [length]; lia]|].
    intros [[[r1 old] fl] ob] s' (t' & E1 & E2 & Hr' & Hnd' & Hfp & HU & Hl & Hrep & Hkp & Hfew). cbn [fst snd] in E1, E2, Hrep. subst r1 fl. cbn beta iota.
    apply wp_bind, wp_getT. apply wp_bind, wp_putT, wp_ret. right. exists t'.
    assert (Hc' : contents t' (<[k := v]> m)) by by eapply contents_insert.
    assert (Hthin : forall w, thin [] t' w -> D w) by auto. by destruct ob.
Qed.

Lemma thin_below (h : heap V) p t w : rep h p t -> thin p t w -> exists b k v, (k, v) ∈ leaves t /\ (w ++ [b]) `prefix_of` k.
Proof.
  intros Hr Ht. induction Ht as [p a pre b t|p a pre lf kids b t w Hbt Hw IH]; pose proof Hr as Hr0;
    apply rep_inv in Hr as (n & Hn & Hlt & He & Hpl & Hlf & Hk1 & Hk2 & Hk3 & Hst & Hkids).
  - destruct (rep_nonempty _ _ _ (Hkids b t ltac:(left))) as (k & v & Hin). exists b, k, v. split; [apply elem_leaves; right; exists b, t; split; [left|done]|].
    rewrite <- app_assoc. eapply rep_leaves_kid; [exact Hr0|left|done].
  - destruct (IH (Hkids b t Hbt)) as (b' & k & v & Hin & Hp). exists b', k, v. split; [|done]. apply elem_leaves. eauto.
Qed.

Lemma etxnDelete_slim D b (s : st V) m x k w : tstate b s m x -> slim D (s_h s) (t_root (s_t s)) m -> m !! k = Some w -> deletable m k ->
  wp (etxnDelete k) (fun _ s' => slim (fun q => D q \/ (q = k /\ shadowed m k)) (s_h s') (t_root (s_t s')) (delete k m)) s.
Proof.
  intros (Hh & Hsz & Htsz & Hx) Hsl Hm Hroom. unfold etxnDelete, delete_fuel. apply wp_bind, wp_getT.
  pose proof (holds_valid _ _ _ _ _ _ Hh Hm) as Hv. pose proof (stored_tree k Hv) as Hst.
  assert (Hne : m <> ∅) by (intros ->; done).
  destruct Hsl as [?|(t & Hr & Hnd & Hroot & Hc & Hth)]; [done|]. rewrite Hroot.
  assert (Hin : (getTreeKey k, w) ∈ leaves t) by (apply Hc; eauto).
  eapply wp_use; [apply (del_main _ s [] t _ w); [exact Hr|exact Hnd|exact Hst|exact Hin|by eapply contents_roomk|cbn [length]; lia]|].
  intros [[nr lr] fl] s' (ot' & E1 & HU & (la & l & E2 & Hla & Hl & Hlin) & Hot). cbn [fst snd] in E1, E2. subst nr lr. cbn beta iota.
  destruct ot' as [t'|]; cbn [fmap option_fmap option_map].
  - destruct Hot as ((Hr' & Hnd' & Hfp') & Hl' & Hkp & Hthin). apply wp_bind, wp_bind, wp_getT. apply wp_putT.
    apply wp_bind, wp_getT. apply wp_bind, wp_getT. apply wp_bind, wp_putT. apply wp_bind. eapply wp_loadL; [exact Hl|]. apply wp_ret.
    right. exists t'. split; [exact Hr'|]. split; [done|]. split; [done|]. split; [by eapply contents_delete|].
    intros q Hq. destruct (Hthin q Hq) as [?|E]; [left; auto|right]. unfold getTreeKey in E. apply app_inj_tail in E as [-> _]. split; [done|]. split; [eauto|].
    destruct (thin_below _ _ _ _ Hr' Hq) as (b' & k' & v' & Hin' & Hp). apply Hl' in Hin' as [Hin' Hnk]. apply Hc in Hin' as (k0 & -> & Hm0).
    exists k0. split; [eauto|]. split; [by intros ->|]. apply snoc_prefix_inv in Hp as [[_ ->]|[z ->]]; [done|]. by apply prefix_app_r.
  - assert (Hem : delete k m = ∅).
    { apply map_eq. intros k1. rewrite lookup_empty. destruct (delete k m !! k1) as [v1|] eqn:E; [|done]. exfalso.
      apply lookup_delete_Some in E as [Hne1 E]. apply Hne1. assert (Hin1 : (k1 ++ [dollar], v1) ∈ leaves t) by (apply Hc; eauto).
      apply Hot in Hin1. by apply app_inj_tail in Hin1 as [-> _]. }
    apply wp_bind. 
    set (s2 := mkS (mkH (<[S (h_next (s_h s')) := set_leaf (set_id (zero_node K4) (t_max (s_t s'))) (Some (h_next (s_h s')))]> (h_nodes (s_h s')))
                     (<[h_next (s_h s') := mkL (t_max (s_t s') + 1) go_zero [] None]> (h_leaves (s_h s'))) (S (S (h_next (s_h s')))) (h_nextch (s_h s')) (h_closed (s_h s')))
                   (set_t_root (set_t_max (s_t s') (t_max (s_t s') + 2)) (S (h_next (s_h s'))))).
    eapply (wp_intro _ _ _ tt s2); [done|].
    apply wp_bind, wp_getT. apply wp_bind, wp_getT. apply wp_bind, wp_putT. apply wp_bind.
    assert (Hlan : la <> h_next (s_h s')).
    { pose proof (rep_fp _ _ _ _ Hr Hla). pose proof (upd_next _ _ _ HU). lia. }
    eapply (wp_loadL la l); [cbn; rewrite lookup_insert_ne by done; exact Hl|]. apply wp_ret. by left.
Qed.

Lemma hollow_mono os o w : hollow os w -> hollow (os ++ [o]) w.
Proof.
  intros (i & Hi & Hs). exists i. pose proof (lookup_lt_Some _ _ _ Hi). rewrite lookup_app_l by done. rewrite take_app_le by lia. done.
Qed.
Lemma hollow_last os w : shadowed (ref_ops os (∅ : kmap)) w -> hollow (os ++ [ODelete w]) w.
Proof.
  intros Hs. exists (length os). rewrite lookup_app_r by lia. rewrite Nat.sub_diag. split; [done|]. by rewrite take_app.
Qed.

Definition slim_ok (D : bytes -> Prop) (h : heap V) (t : rtree) (m : kmap) (x : nat) : Prop := tree_ok h t m x /\ slim D h (r_root t) m.
Lemma withTxn_slim (D : bytes -> Prop) (m : kmap) h t x d o d' : slim_ok D (er_h h) t m x -> tame_op m d o d' -> x <= d -> (N.of_nat (S (size m + x)) < 2 ^ 64)%N ->
  wp (withTxn t (txnOps [o])) (fun r h' => exists x', slim_ok (fun q => D q \/ (o = ODelete q /\ shadowed m q)) (er_h h') r.1 (ref_op o m) x' /\ x' <= d' /\
     size (ref_op o m) + x' <= S (size m + x)) h.
Proof.
  intros [Hok Hsl] Ho Hx Hlt.
  assert (Hw1 : wp (withTxn t (txnOps [o])) (fun r h' => exists x', tree_ok (er_h h') r.1 (ref_op o m) x' /\ x' <= d' /\ size (ref_op o m) + x' <= S (size m + x)) h).
  { eapply wp_mono; [eapply (withTxn_spec m h t x d [o] d'); [exact Hok| |done|cbn [length]; by replace (size m + x + 1) with (S (size m + x)) by lia]|].
    - apply (tame_in_snoc _ _ [] d o d'); [constructor|done|done].
    - intros r h' (x' & H1 & H2 & H3 & _). exists x'. cbn in H1, H3. split; [done|]. split; [done|]. cbn [length] in H3. lia. }
  assert (Hw2 : wp (withTxn t (txnOps [o])) (fun r h' => slim (fun q => D q \/ (o = ODelete q /\ shadowed m q)) (er_h h') (r_root r.1) (ref_op o m)) h).
  { eapply wp_mono; [eapply hsim_wp; [apply hsim_withTxn, sim_txnOps|]|].
    - instantiate (1 := fun r h' => slim (fun q => D q \/ (o = ODelete q /\ shadowed m q)) h' (r_root r.1) (ref_op o m)).
      destruct Hok as (Hh & Hsz & Hx0). unfold wp, ewithTxn. destruct (enewTxn_spec false (er_h h) t m Hh) as (r & h1 & E & Hh1). rewrite E.
      pose proof (enewTxn_slim D _ _ _ Hsl _ _ E) as Hsl1. set (s1 := mkS h1 _). assert (Ht : tstate true s1 m x) by (split; [exact Hh1|done]).
      assert (Hw : wp (etxnOps [o]) (fun _ s' => slim (fun q => D q \/ (o = ODelete q /\ shadowed m q)) (s_h s') (t_root (s_t s')) (ref_op o m)) s1).
      { cbn [etxnOps]. destruct o as [k v|k|k]; cbn [etxnOp ref_op].
        - apply wp_bind, wp_bind. eapply wp_mono; [eapply etxnInsert_slim; [exact Ht|exact Hsl1|apply Ho|done]|].
          intros r' s' Hs. apply wp_ret. apply wp_bind, wp_ret, wp_ret. eapply slim_mono; [|exact Hs]. by left.
        - destruct Ho as ([w Hk] & Hroom & _). apply wp_bind, wp_bind. eapply wp_mono; [eapply etxnDelete_slim; [exact Ht|exact Hsl1|exact Hk|exact Hroom]|].
          intros r' s' Hs. apply wp_ret. apply wp_bind, wp_ret, wp_ret. eapply slim_mono; [|exact Hs]. intros q [?|[-> ?]]; [by left|by right].
        - done. }
      apply wp_elim in Hw as (a & s2 & E2 & HQ). rewrite E2. exact HQ.
    - done. }
  eapply wp_mono; [apply wp_and; [exact Hw1|exact Hw2]|]. intros r h' [(x' & H1 & H2 & H3) H4]. exists x'. split; [split; [exact H1|exact H4]|done].
Qed.

Lemma treeOps_slim (h : heap V) t os d : tame os d -> tree_ok (er_h h) t (∅ : kmap) 0 -> (N.of_nat (length os) < 2 ^ 64)%N ->
  wp (treeOps os t) (fun r h' => exists x, slim_ok (hollow os) (er_h h') r.1 (ref_ops os ∅) x /\ x <= d /\ size (ref_ops os (∅ : kmap)) + x <= length os) h.
Proof.
  intros Hin Ht. induction Hin as [|os d o d' Hin IH Ho]; intros Hlt.
  - apply wp_ret. exists 0. cbn. split; [split; [done|by left]|]. split; [done|]. by rewrite map_size_empty.
  - unfold wp. rewrite treeOps_txns, fmap_app. change ((fun o0 : op V => [o0]) <$> [o]) with [[o]]. rewrite treeTxns_snoc.
    change (wp (let! p := treeTxns ((fun o0 => [o0]) <$> os) t in let! q := withTxn p.1 (txnOps [o]) in ret (q.1, p.2 ++ q.2))
      (fun r h' => exists x, slim_ok (hollow (os ++ [o])) (er_h h') r.1 (ref_ops (os ++ [o]) ∅) x /\ x <= d' /\ size (ref_ops (os ++ [o]) (∅ : kmap)) + x <= length (os ++ [o])) h).
    rewrite app_length in *. cbn [length] in *. apply wp_bind.
    assert (Hw : wp (treeTxns ((fun o0 => [o0]) <$> os) t) (fun r h' => exists x, slim_ok (hollow os) (er_h h') r.1 (ref_ops os ∅) x /\ x <= d /\ size (ref_ops os (∅ : kmap)) + x <= length os) h).
    { specialize (IH ltac:(lia)). unfold wp in *. by rewrite treeOps_txns in IH. }
    eapply wp_mono; [exact Hw|]. intros [t1 rs1] h1 (x1 & Ht1 & Hx1 & Hs1). cbn [fst snd] in *.
    apply wp_bind. eapply wp_mono; [eapply withTxn_slim; [exact Ht1|exact Ho|exact Hx1|lia]|].
    intros [t2 rs2] h2 (x2 & [Ht2 Hsl2] & Hx2 & Hs2). apply wp_ret. exists x2. cbn [fst snd] in *. rewrite ref_ops_snoc. split; [|split; [done|lia]].
    split; [done|]. eapply slim_mono; [|exact Hsl2]. intros q [Hq|[-> Hq]]; [by apply hollow_mono|by apply hollow_last].
Qed.
Lemma build_slim os d h t rs : tame (V:=V) os d -> (N.of_nat (length os) < 2 ^ 64)%N -> build os h t rs ->
  slim (hollow os) (er_h h) (r_root t) (ref_ops os ∅).
Proof.
  intros Ht Hl Hb. unfold build in Hb. assert (Hw : wp (let! t0 := newTree in treeOps os t0) (fun r h' => slim (hollow os) (er_h h') (r_root r.1) (ref_ops os ∅)) h_init).
  { eapply wp_use; [apply newTree_spec|]. intros t0 h0 Hok. eapply wp_mono; [by eapply treeOps_slim|]. intros r h' (x & [_ Hs] & _). done. }
  unfold wp in Hw. by rewrite Hb in Hw.
Qed.
End Thin.
