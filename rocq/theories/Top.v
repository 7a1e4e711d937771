(** Whole operations on trees and transactions: what a root holds. *)
From Verif Require Export Insert5 Delete3.
From stdpp Require Export list.
Local Open Scope nat_scope.

(** a key without '$' that starts a stored key starts the key *)
Lemma valid_prefix_snoc k k0 : valid_key k -> k `prefix_of` k0 ++ [dollar] -> k `prefix_of` k0.
Proof.
  intros Hv [z E]. destruct z as [|c z _] using rev_ind.
  - rewrite app_nil_r in E. subst k. unfold valid_key in Hv. rewrite Forall_app, Forall_singleton in Hv. destruct Hv as [_ [_ Hv]]. done.
  - rewrite app_assoc in E. apply app_inj_tail in E as [-> _]. by exists z.
Qed.

Section Top.
Context {V : Type} `{GoZero V} {D : KeyDom}.
Notation art := (art V).
Notation TM := (M (st V)).
Notation HM := (M (heap V)).
Notation nd s := (h_nodes (s_h s)).
Notation lv s := (h_leaves (s_h s)).
Notation nx s := (h_next (s_h s)).
Notation kmap := (gmap (list nat) V).

(** The root of an empty tree: a Node4 without children whose leaf has the empty key.  [b]: the partial
    array has its full length (not so directly after NewRadixTree or after the last Delete). *)
Definition phantom (b : bool) (h : heap V) (a : addr) : Prop :=
  exists n la l, h_nodes h !! a = Some n /\ a < h_next h /\ enc n [] /\ n_plen n = 0 /\
    (forall i c, n_children n !! i <> Some (Some c)) /\
    n_leaf n = Some la /\ la < h_next h /\ h_leaves h !! la = Some l /\ l_key l = [] /\ a <> la /\
    (b = true -> length (n_partial n) = maxPrefixLen) /\ n_kind n = K4.

Definition contents (t : art) (m : kmap) : Prop :=
  forall k v, (k, v) ∈ leaves t <-> exists k0, k = k0 ++ [dollar] /\ m !! k0 = Some v.

(** The tree at address a holds the map m. *)
Inductive holds (b : bool) (h : heap V) (a : addr) (m : kmap) : Prop :=
| holds_empty : m = ∅ -> phantom b h a -> holds b h a m
| holds_tree t : rep h [] t -> NoDup (fp t) -> a = aroot t -> contents t m -> holds b h a m.

Lemma rep_stored h p (t : art) k v : rep h p t -> (k, v) ∈ leaves t -> exists k0, k = k0 ++ [dollar] /\ kd k0.
Proof. intros Hr Hin. by destruct (rep_leaves _ _ _ _ _ Hr Hin) as [_ Hs]. Qed.
Lemma holds_valid b h a m k v : holds b h a m -> m !! k = Some v -> kd k.
Proof.
  intros [-> _|t Hr Hnd -> Hc] Hm; [done|]. assert (Hin : (k ++ [dollar], v) ∈ leaves t) by (apply Hc; eauto).
  destruct (rep_stored _ _ _ _ _ Hr Hin) as (k0 & E & Hv). by apply app_inj_tail in E as [-> _].
Qed.
Lemma holds_ne b h a m : holds b h a m -> m <> ∅ -> exists t, rep h [] t /\ NoDup (fp t) /\ a = aroot t /\ contents t m.
Proof. intros [-> _|t Hr Hnd -> Hc] Hne; [done|eauto]. Qed.
Lemma contents_ne h p (t : art) m : rep h p t -> contents t m -> m <> ∅.
Proof.
  intros Hr Hc ->. destruct (rep_nonempty _ _ _ Hr) as (k & v & Hin). apply Hc in Hin as (k0 & _ & E). done.
Qed.

(** ** Lookup *)
Lemma scan_none (h : heap V) key chs : (forall i c, chs !! i <> Some (Some c)) -> scanChildren h key chs = Ok None.
Proof.
  induction chs as [|[c|] chs IH]; intros Hn; [done| |].
  - by destruct (Hn 0 c).
  - cbn. apply IH. intros i c. exact (Hn (S i) c).
Qed.
Lemma getTreeKey_bytes k : is_bytes k -> is_bytes (getTreeKey k).
Proof. intros Hk. unfold is_bytes, getTreeKey. apply Forall_app. split; [done|]. repeat constructor. Qed.
Lemma phantom_search b (h : heap V) a key fuel : phantom b h a -> is_bytes key -> key <> [] -> search (S fuel) h a key 0 = Ok (Missing a).
Proof.
  intros (n & la & l & Hn & Hlt & He & Hpl & Hch & Hlf & Hlalt & Hl & Hlk & Hne & _) Hk Hkne. cbn [search]. rewrite Hn.
  assert (Hown : ownLeaf h key n = Ok None).
  { unfold ownLeaf. rewrite Hlf, Hl, Hlk. destruct (leafMatches [] key) eqn:E; [|done]. apply leafMatches_true in E. done. }
  assert (Hex : searchExit h key a n = Ok (Missing a)).
  { unfold searchExit. rewrite Hown. cbn [obind]. rewrite scan_none; [done|]. intros i c. apply Hch. }
  replace (if isLeafN n then ownLeaf h key n else Ok None) with (Ok (A:=option addr) None) by (by destruct (isLeafN n)).
  cbn [obind]. rewrite Hpl. cbn [Nat.ltb Nat.leb obind andb]. rewrite Nat.add_0_r. destruct key as [|c key]; [done|]. cbn [lookup list_lookup].
  apply Forall_cons in Hk as [Hc _]. rewrite (findChild_None n [] c He Hc eq_refl). cbn [obind]. done.
Qed.
Lemma holds_get b h a m k : holds b h a m -> is_bytes k -> getFrom h a k = Ok (ref_get m k).
Proof.
  intros Hh Hk. pose proof (getTreeKey_bytes k Hk) as Hkb. unfold getFrom, search_fuel. destruct Hh as [-> Hp|t Hr Hnd -> Hc].
  - replace (length (getTreeKey k) + 2) with (S (length (getTreeKey k) + 1)) by lia. rewrite (phantom_search b); [done..|]. by destruct k.
  - destruct (search_spec h (getTreeKey k) t Hkb (length (getTreeKey k) + 2) [] Hr) as (r & Hs & Hres); [cbn; lia|cbn; lia|].
    cbn [length] in Hs. rewrite Hs. cbn [obind]. unfold ref_get. destruct r as [la|a'].
    + destruct Hres as (l & -> & Hin). apply Hc in Hin as (k0 & E & Hm). apply app_inj_tail in E as [<- _]. by rewrite Hm.
    + destruct Hres as (_ & _ & Hno). destruct (m !! k) as [v|] eqn:Hm; [|done]. exfalso. apply (Hno v), Hc. eauto.
Qed.

(** ** Starting a transaction *)
Lemma enewTxn_spec b h tr m : holds b h (r_root tr) m -> exists r h', enewTxn tr h = (Ok (mkTx r (r_size tr) (r_max tr) (r_size tr) (r_max tr) false []), h') /\
  holds true h' r m.
Proof.
  intros Hh. unfold enewTxn, ecloneN, bind, hloadN, hallocN.
  assert (Hcl : forall n, h_nodes h !! r_root tr = Some n -> length (clonePartial (n_partial n)) = maxPrefixLen).
  { intros n _. unfold clonePartial, go_copy. rewrite !app_length, !take_length, drop_length, replicate_length. lia. }
  destruct Hh as [-> (n & la & l & Hn & Hlt & He & Hpl & Hch & Hlf & Hlalt & Hl & Hlk & Hne & _ & Hk4)|t Hr Hnd E Hc].
  - rewrite Hn. eexists _, _. split; [reflexivity|]. apply holds_empty; [done|].
    eexists _, la, l. cbn. rewrite lookup_insert. split; [done|]. split; [lia|]. split; [eapply enc_same; [|exact He]; done|].
    split; [done|]. split; [done|]. split; [done|]. split; [lia|]. split; [done|]. split; [done|]. split; [lia|]. split; [|done]. intros _. by apply Hcl.
  - destruct t as [a pre lf kids]. cbn [aroot] in E. pose proof Hr as Hr0.
    apply rep_inv in Hr as (n & Hn & Hlt & He & Hpl & Hlf & Hk1 & Hk2 & Hk3 & Hst & Hkids). rewrite E, Hn.
    eexists _, _. split; [reflexivity|].
    set (s := mkS h (mkTx 0 0%N 0 0%N 0 false [])). set (n' := set_partial _ _).
    assert (HU : upd none s (alN s n')) by apply upd_alN, upd_refl.
    assert (Hn' : n' = n) by (unfold n'; rewrite clonePartial_id by done; by destruct n).
    eapply (holds_tree _ _ _ _ (Art (h_next h) pre lf kids)).
    + eapply (rep_copy s (alN s n') none [] a pre lf kids n); [exact Hr0|exact Hn|cbn; apply lookup_insert|cbn; lia| |exact HU|apply not_none].
      rewrite Hn'. done.
    + pose proof (rep_fpx _ _ _ Hr0) as Hfp. rewrite fp_eq in Hnd, Hfp |- *. apply NoDup_cons in Hnd as [_ Hnd]. apply NoDup_cons. split; [|done].
      intros Hx. assert (h_next h < h_next h); [apply Hfp; by right|lia].
    + done.
    + exact Hc.
Qed.

(** ** Sizes *)
Lemma u64_small x : (x < 2 ^ 64)%N -> u64 x = x.
Proof. intros Hx. unfold u64. by apply N.mod_small. Qed.
Lemma u64_incr_nat n : (N.of_nat (S n) < 2 ^ 64)%N -> u64_incr (N.of_nat n) = N.of_nat (S n).
Proof. intros Hn. unfold u64_incr. rewrite u64_small; lia. Qed.
Lemma u64_decr_nat n : (N.of_nat (S n) < 2 ^ 64)%N -> u64_sub (N.of_nat (S n)) 1 = N.of_nat n.
Proof.
  intros Hn. unfold u64_sub, u64. rewrite (N.mod_small 1) by done.
  replace (N.of_nat (S n) + (2 ^ 64 - 1))%N with (N.of_nat n + 1 * 2 ^ 64)%N by lia.
  rewrite N.mod_add by done. apply N.mod_small. lia.
Qed.

(** The state of a transaction: it holds m; its sizes count x updates too many. *)
Definition tstate (b : bool) (s : st V) (m : kmap) (x : nat) : Prop :=
  holds b (s_h s) (t_root (s_t s)) m /\ t_size (s_t s) = N.of_nat (size m + x) /\ t_tsize (s_t s) = N.of_nat (size m + x) /\
  (m = ∅ -> x = 0).

Lemma contents_insert t t' m k v : contents t m ->
  (forall k' v', (k', v') ∈ leaves t' <-> (k' = k ++ [dollar] /\ v' = v) \/ (k' <> k ++ [dollar] /\ (k', v') ∈ leaves t)) ->
  contents t' (<[k := v]> m).
Proof.
  intros Hc Hl k' v'. rewrite Hl. split.
  - intros [[-> ->]|[Hne Hin]]; [exists k; by rewrite lookup_insert|].
    apply Hc in Hin as (k0 & -> & Hm). exists k0. split; [done|]. rewrite lookup_insert_ne; [done|]. by intros ->.
  - intros (k0 & -> & Hm). destruct (decide (k0 = k)) as [->|Hne].
    + rewrite lookup_insert in Hm. left. split; congruence.
    + rewrite lookup_insert_ne in Hm by done. right. split; [|apply Hc; eauto]. intros E. apply app_inj_tail in E as [-> _]. done.
Qed.
Lemma contents_delete t t' m k : contents t m ->
  (forall k' v', (k', v') ∈ leaves t' <-> (k', v') ∈ leaves t /\ k' <> k ++ [dollar]) ->
  contents t' (delete k m).
Proof.
  intros Hc Hl k' v'. rewrite Hl. split.
  - intros [Hin Hne]. apply Hc in Hin as (k0 & -> & Hm). exists k0. split; [done|]. rewrite lookup_delete_ne; [done|]. by intros ->.
  - intros (k0 & -> & Hm). apply lookup_delete_Some in Hm as [Hne Hm]. split; [apply Hc; eauto|]. intros E. apply app_inj_tail in E as [-> _]. done.
Qed.

Definition ins_size (m : kmap) (x : nat) (k : bytes) (r : V * bool) (x' : nat) : Prop :=
  match m !! k with
  | None => r = (go_zero, false) /\ x' = x
  | Some w => (r = (w, true) /\ x' = x) \/ (r = (go_zero, false) /\ x' = S x /\ shadowed m k)
  end.

Lemma dom_prefix_snoc k k0 : kd k -> kd k0 -> k <> k0 -> k `prefix_of` k0 ++ [dollar] -> k `prefix_of` k0.
Proof.
  intros Hk Hk0 Hne [z E]. destruct z as [|c z _] using rev_ind.
  - rewrite app_nil_r in E. destruct Hne. symmetry. apply kd_free; [done..|]. rewrite <- E. by exists [dollar].
  - rewrite app_assoc in E. apply app_inj_tail in E as [-> _]. by exists z.
Qed.
Lemma stored_tree k : kd k -> stored (getTreeKey k).
Proof. intros Hv. exists k. done. Qed.

Lemma size_insert_old (m : kmap) k v w : m !! k = Some w -> size (<[k := v]> m) = size m.
Proof. intros E. rewrite map_size_insert, E. done. Qed.
Lemma size_insert_new (m : kmap) k v : m !! k = None -> size (<[k := v]> m) = S (size m).
Proof. intros E. rewrite map_size_insert, E. done. Qed.

(** The first Insert into an empty tree. *)
Lemma first_insert s a key v fuel : phantom true (s_h s) a -> stored key -> t_tsize (s_t s) = 0%N ->
  wp (erecursiveInsert (S fuel) a key v 0) (fun r s' => exists t', r = (aroot t', go_zero, true, false) /\ rep (s_h s') [] t' /\ NoDup (fp t') /\
    leaves t' = [(key, v)] /\ (forall w, ~ thin [] t' w) /\ exists mx, s_t s' = set_t_max (s_t s) mx) s.
Proof.
  intros (n & la & l & Hn & Hlt & He & Hpl & Hch & Hlf & Hlalt & Hl & Hlk & Hne & Hpa & Hk4) Hs Hts. cbn [erecursiveInsert].
  apply wp_bind, wp_getT. rewrite Hts. cbn [N.eqb].
  eapply wp_use; [by apply ewriteNode_spec; [exact Hn|apply Hpa|]|].
  intros a1 s1 (n1 & Hn1 & Hsame & Ha1 & Hor & HU & Hlv). cbn beta.
  apply wp_allocLeafKV. intros i. apply wp_bind. eapply wp_setNodeLeaf; [exact Hn1|]. apply wp_ret.
  pose proof Hsame as (E1 & E2 & E3 & E4 & E5 & E6 & E7).
  exists (Art a1 [] (Some (nx s1, key, v)) []). split; [done|]. split; [|split; [|split; [|split]]].
  - apply (rep_node _ _ _ _ _ _ (set_leaf n1 (Some (nx s1)))); [..|cbn; rewrite E1, Hk4; cbn; lia].
    + cbn. by rewrite lookup_insert.
    + cbn. lia.
    + eapply enc_same; [|exact He]. by apply same_node_arr in Hsame.
    + cbn [n_partial set_leaf]. rewrite E4. by apply Hpa.
    + split; [done|]. split; [cbn; lia|]. eexists. cbn. rewrite lookup_insert. done.
    + done.
    + intros _. eexists _, _, _. split; [done|apply prefix_nil].
    + intros la' k' v' [= <- <- <-]. done.
    + intros c Hc. exfalso. unfold stale in Hc. cbn [n_kind set_leaf n_children n_nch] in Hc.
      destruct (sortedkind (n_kind n1)); [|by apply elem_of_nil in Hc].
      apply elem_of_list_omap in Hc as ([c0|] & Ho & Hid); [|done]. apply elem_of_list_lookup in Ho as (j & Hj). rewrite lookup_drop, E6 in Hj. by apply Hch in Hj.
    + intros b t Hb. by apply elem_of_nil in Hb.
  - rewrite fp_eq. cbn. apply NoDup_cons. split; [|apply NoDup_singleton]. rewrite elem_of_list_singleton. lia.
  - done.
  - intros w. apply thin_holder.
  - destruct (upd_t _ _ _ HU) as [mx E]. cbn. rewrite E. eexists. cbn. reflexivity.
Qed.

Lemma etxnInsert_spec b s m x k v : tstate b s m x -> kd k -> (m = ∅ -> b = true) -> (N.of_nat (S (size m + x)) < 2 ^ 64)%N ->
  wp (etxnInsert k v) (fun r s' => exists x', tstate false s' (<[k := v]> m) x' /\ ins_size m x k r x') s.
Proof.
  intros (Hh & Hsz & Htsz & Hx) Hv Hb Hlt. unfold etxnInsert, insert_fuel. apply wp_bind, wp_getT.
  pose proof (stored_tree k Hv) as Hst.
  destruct (decide (m = ∅)) as [->|Hne].
  - rewrite (Hx eq_refl) in *. cbn in Hsz, Htsz.
    assert (Hp : phantom true (s_h s) (t_root (s_t s))).
    { destruct Hh as [_ Hp|t Hr _ _ Hc]; [by rewrite <- (Hb eq_refl)|by destruct (contents_ne _ _ _ _ Hr Hc)]. }
    replace (2 * length (getTreeKey k) + 4) with (S (2 * length (getTreeKey k) + 3)) by lia.
    eapply wp_use; [by apply first_insert|]. intros r s' (t' & -> & Hr & Hnd & Hlv & _ & mx & Et). cbn beta iota.
    apply wp_bind, wp_getT. apply wp_bind, wp_putT, wp_ret. exists 0. split.
    + split; [|split; [|split]].
      * eapply (holds_tree _ _ _ _ t'); [exact Hr|done|done|]. intros k' v'. rewrite Hlv, elem_of_list_singleton. split.
        -- intros [= -> ->]. exists k. by rewrite lookup_insert.
        -- intros (k0 & -> & Hm). apply lookup_insert_Some in Hm as [[-> ->]|[_ Hm]]; [done|]. by rewrite lookup_empty in Hm.
      * cbn. rewrite Et. cbn. rewrite Hsz. rewrite (size_insert_new ∅) by done. rewrite map_size_empty. done.
      * cbn. rewrite Et. cbn. rewrite Htsz. rewrite (size_insert_new ∅) by done. rewrite map_size_empty. done.
      * done.
    + unfold ins_size. rewrite lookup_empty. done.
  - destruct (holds_ne _ _ _ _ Hh Hne) as (t & Hr & Hnd & Hroot & Hc). rewrite Hroot.
    assert (Hts : t_tsize (s_t s) <> 0%N).
    { rewrite Htsz. intros E. apply Hne, map_size_empty_iff. lia. }
    eapply wp_use; [apply (proj1 (ins_main _) s [] t); [exact Hr|exact Hnd|exact Hst|apply prefix_nil|exact Hts|cbn [length]; lia]|].
    intros [[[r1 old] fl] ob] s' (t' & E1 & E2 & Hr' & Hnd' & Hfp & HU & Hl & Hrep & _). cbn [fst snd] in E1, E2, Hrep. subst r1 fl. cbn beta iota.
    apply wp_bind, wp_getT. apply wp_bind, wp_putT, wp_ret. destruct (upd_t _ _ _ HU) as [mx Et].
    assert (Hc' : contents t' (<[k := v]> m)) by by eapply contents_insert.
    assert (Hne' : <[k := v]> m = ∅ -> False) by (apply insert_non_empty).
    destruct ob; cbn [report] in Hrep.
    + apply Hc in Hrep as (k0 & E & Hm). apply app_inj_tail in E as [<- _]. exists x. split.
      * split; [by eapply holds_tree|]. rewrite (size_insert_old _ _ _ _ Hm). cbn. rewrite Et. done.
      * unfold ins_size. rewrite Hm. left. done.
    + destruct Hrep as [-> Hrep]. destruct (m !! k) as [w|] eqn:Hm.
      * exists (S x). split.
        -- split; [by eapply holds_tree|]. rewrite (size_insert_old _ _ _ _ Hm). cbn. rewrite Et. cbn. rewrite Hsz, Htsz.
           rewrite u64_incr_nat by done. rewrite Nat.add_succ_r. done.
        -- unfold ins_size. rewrite Hm. right. split; [done|]. split; [done|]. split; [eauto|].
           destruct Hrep as [Hno|(k' & v' & Hin & Hnk & Hpk)].
           ++ destruct (Hno w). apply Hc. eauto.
           ++ apply Hc in Hin as (k0 & -> & Hm0). assert (k0 <> k) by (by intros ->). exists k0. split; [eauto|]. split; [done|].
              unfold getTreeKey in Hpk. rewrite getKey_snoc in Hpk. apply dom_prefix_snoc; [done|by eapply holds_valid|done..].
      * exists x. split.
        -- split; [by eapply holds_tree|]. rewrite (size_insert_new _ _ _ Hm). cbn. rewrite Et. cbn. rewrite Hsz, Htsz.
           rewrite u64_incr_nat by done. done.
        -- unfold ins_size. rewrite Hm. done.
Qed.

(** ** Delete of a stored key *)
Lemma contents_room t m : contents t m -> roomy m -> room t.
Proof.
  intros Hc Hr q. destruct (Hr q) as (b & Hb & Hn). exists b. split; [done|]. intros k v Hin. apply Hc in Hin as (k0 & -> & Hm). apply Hn. eauto.
Qed.

Lemma contents_roomk (m : kmap) (t : art) (k : bytes) : contents t m -> deletable m k -> roomk [] t (getTreeKey k).
Proof.
  intros Hc [H1 H2]. assert (Hup : forall q, room_at m q -> roomL t q).
  { intros q (b & Hb & Hn). exists b. split; [done|]. intros k' v Hin. apply Hc in Hin as (k0 & -> & Hm). apply Hn. eauto. }
  unfold getTreeKey. split.
  - intros q c k' v _ Hq Hin Hne Hk'. apply Hc in Hin as (k0 & -> & Hm). apply Hup. eapply (H1 q c k0); [done|eauto|congruence|done].
  - intros q r _ Hq Hn Hall. apply Hup. apply H2; [done|done|]. intros k0 [v Hm] Hne Hq0. apply (Hall (k0 ++ [dollar]) v); [apply Hc; eauto| |done].
    intros E. by apply app_inj_tail in E as [-> _].
Qed.

Lemma etxnDelete_gen b s m x k w : holds b (s_h s) (t_root (s_t s)) m -> t_size (s_t s) = N.of_nat (size m + x) -> t_tsize (s_t s) = N.of_nat (size m + x) ->
  m !! k = Some w -> deletable m k -> (N.of_nat (size m + x) < 2 ^ 64)%N ->
  wp (etxnDelete k) (fun r s' => (holds false (s_h s') (t_root (s_t s')) (delete k m) /\ t_size (s_t s') = N.of_nat (size (delete k m) + x) /\
    t_tsize (s_t s') = N.of_nat (size (delete k m) + x)) /\ r = (w, true)) s.
Proof.
  intros Hh Hsz Htsz Hm Hroom Hlt. unfold etxnDelete, delete_fuel. apply wp_bind, wp_getT.
  pose proof (holds_valid _ _ _ _ _ _ Hh Hm) as Hv. pose proof (stored_tree k Hv) as Hst.
  assert (Hne : m <> ∅) by (intros ->; done).
  destruct (holds_ne _ _ _ _ Hh Hne) as (t & Hr & Hnd & Hroot & Hc). rewrite Hroot.
  assert (Hin : (getTreeKey k, w) ∈ leaves t) by (apply Hc; eauto).
  eapply wp_use; [apply (del_main _ s [] t _ w); [exact Hr|exact Hnd|exact Hst|exact Hin|by eapply contents_roomk|cbn [length]; lia]|].
  intros [[nr lr] fl] s' (ot' & E1 & HU & (la & l & E2 & Hla & Hl & Hlin) & Hot). cbn [fst snd] in E1, E2. subst nr lr. cbn beta iota.
  destruct (upd_t _ _ _ HU) as [mx Et].
  assert (Hlw : l_val l = w) by (eapply rep_leaves_fun; eauto).
  assert (Hdel : size (delete k m) = pred (size m)) by (rewrite map_size_delete, Hm; lia).
  assert (Hpos : size m <> 0) by (by intros E%map_size_empty_iff).
  destruct ot' as [t'|]; cbn [fmap option_fmap option_map].
  - destruct Hot as ((Hr' & Hnd' & Hfp') & Hl' & _). apply wp_bind, wp_bind, wp_getT. apply wp_putT.
    apply wp_bind, wp_getT. apply wp_bind, wp_getT. apply wp_bind, wp_putT. apply wp_bind. eapply wp_loadL; [exact Hl|]. apply wp_ret.
    split; [|by rewrite Hlw]. split; [|cbn; rewrite Et; cbn; rewrite Hsz, Htsz].
    + eapply holds_tree; [exact Hr'|done|done|]. by eapply contents_delete.
    + replace (size m + x) with (S (size (delete k m) + x)) in * by lia. rewrite u64_decr_nat by done. done.
  - assert (Hem : delete k m = ∅).
    { apply map_eq. intros k1. rewrite lookup_empty. destruct (delete k m !! k1) as [v1|] eqn:E; [|done]. exfalso.
      apply lookup_delete_Some in E as [Hne1 E]. apply Hne1. assert (Hin1 : (k1 ++ [dollar], v1) ∈ leaves t) by (apply Hc; eauto).
      apply Hot in Hin1. by apply app_inj_tail in Hin1 as [-> _]. }
    apply wp_bind.
    set (s2 := mkS (mkH (<[S (nx s') := set_leaf (set_id (zero_node K4) (t_max (s_t s'))) (Some (nx s'))]> (nd s'))
                     (<[nx s' := mkL (t_max (s_t s') + 1) go_zero [] None]> (lv s')) (S (S (nx s'))) (h_nextch (s_h s')) (h_closed (s_h s')))
                   (set_t_root (set_t_max (s_t s') (t_max (s_t s') + 2)) (S (nx s')))).
    eapply (wp_intro _ _ _ tt s2); [done|].
    apply wp_bind, wp_getT. apply wp_bind, wp_getT. apply wp_bind, wp_putT. apply wp_bind. 
    assert (Hlan : la <> nx s').
    { pose proof (rep_fp _ _ _ _ Hr Hla). pose proof (upd_next _ _ _ HU). lia. }
    eapply (wp_loadL la l); [cbn; rewrite lookup_insert_ne by done; exact Hl|]. apply wp_ret.
    split; [|by rewrite Hlw]. split; [|cbn; rewrite Et; cbn; rewrite Hsz, Htsz].
    + apply holds_empty; [done|]. eexists _, (nx s'), _. cbn. rewrite !lookup_insert. split; [done|]. split; [lia|].
      split; [eapply enc_same; [|apply (enc_zero4 0)]; done|]. split; [done|]. split.
      { intros i c. cbn. do 4 (destruct i as [|i]; [done|]). done. }
      split; [done|]. split; [lia|]. split; [done|]. split; [done|]. split; [lia|]. done.
    + replace (size m + x) with (S (size (delete k m) + x)) in * by lia. rewrite u64_decr_nat by done. done.
Qed.
Lemma etxnDelete_spec b s m x k w : tstate b s m x -> m !! k = Some w -> deletable m k -> (x = 0 \/ delete k m <> ∅) -> (N.of_nat (size m + x) < 2 ^ 64)%N ->
  wp (etxnDelete k) (fun r s' => tstate false s' (delete k m) x /\ r = (w, true)) s.
Proof.
  intros (Hh & Hsz & Htsz & Hx) Hm Hroom Hx0 Hlt. eapply wp_mono; [by eapply etxnDelete_gen|]. intros r s' [(H1 & H2 & H3) H4].
  split; [|done]. split; [done|]. split; [done|]. split; [done|]. intros E. by destruct Hx0.
Qed.
End Top.
