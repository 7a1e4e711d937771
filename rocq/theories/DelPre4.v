(** DeletePrefix on a transaction and on a tree. *)
From Verif Require Export DelPre3 AbsDel SpecPrefix.
From stdpp Require Export list.
Local Open Scope nat_scope.

Lemma u64_sub_nat a b : b <= a -> (N.of_nat a < 2 ^ 64)%N -> u64_sub (N.of_nat a) (N.of_nat b) = N.of_nat (a - b).
Proof.
  intros Hle Ha. unfold u64_sub, u64. rewrite (N.mod_small (N.of_nat b)) by lia.
  replace (N.of_nat a + (2 ^ 64 - N.of_nat b))%N with (N.of_nat (a - b) + 1 * 2 ^ 64)%N by lia.
  rewrite N.mod_add by done. apply N.mod_small. lia.
Qed.
Lemma klt_plt x y : klt x y -> plt x y \/ x `prefix_of` y.
Proof.
  revert y. induction x as [|a x IH]; intros [|b y]; cbn; try done; [intros _; right; apply prefix_nil|].
  intros [Hlt|[-> Hlt]]; [left; exists [], a, b; split; [done|]; split; by eexists|].
  destruct (IH y Hlt) as [(P & c & c' & Hc & [z1 E1] & [z2 E2])|Hp]; [left|right; by apply prefix_cons].
  exists (b :: P), c, c'. split; [done|]. subst. split; by eexists.
Qed.

Lemma nodup_sublist {A} (l l' : list A) : l' `sublist_of` l -> NoDup l -> NoDup l'.
Proof.
  induction 1 as [|x l1 l2 Hs IH|x l1 l2 Hs IH]; intros Hnd; [done| |]; apply NoDup_cons in Hnd as [Hx Hnd]; [|auto].
  apply NoDup_cons. split; [|auto]. intros Hin. apply Hx. by eapply elem_of_submseteq, sublist_submseteq.
Qed.
Lemma fmap_sublist {A B} (f : A -> B) (l l' : list A) : l' `sublist_of` l -> (f <$> l') `sublist_of` (f <$> l).
Proof. induction 1; cbn; by constructor. Qed.

Section DelPre4.
Context {V : Type} `{GoZero V}.
Notation art := (art V).
Notation TM := (M (st V)).
Notation nd s := (h_nodes (s_h s)).
Notation nx s := (h_next (s_h s)).
Notation kmap := (gmap (list nat) V).

Lemma hit_spec k p : hit (getTreeKey p) (k ++ [dollar]) = true <-> p `prefix_of` k.
Proof. unfold hit, getTreeKey. rewrite !getKey_snoc. apply has_prefix_true. Qed.
Lemma pc_size (h : heap V) (t : art) (m : kmap) (p : bytes) : rep h [] t -> contents t m -> pc (getTreeKey p) t = starting m p.
Proof.
  intros Hr Hc. unfold pc, starting, size, map_size.
  rewrite <- (fmap_length (fun kv : list nat * V => (kv.1 ++ [dollar], kv.2)) (map_to_list _)). apply Permutation_length, NoDup_Permutation.
  - assert (Hnd : NoDup (leaves t)) by (eapply NoDup_fmap_1; by eapply rep_keys_NoDup). apply NoDup_ListNoDup in Hnd. apply NoDup_ListNoDup. by apply List.NoDup_filter.
  - apply NoDup_fmap_2; [|apply NoDup_map_to_list]. intros [k v] [k' v'] [= E ->]. apply app_inj_tail in E as [-> _]. done.
  - intros [k v]. rewrite elem_of_list_In, filter_In, <- elem_of_list_In, (Hc k v). cbn [fst]. rewrite elem_of_list_fmap. split.
    + intros [(k0 & -> & Hk0) Hh]. exists (k0, v). split; [done|]. apply elem_of_map_to_list, map_filter_lookup_Some. split; [done|]. by apply hit_spec.
    + intros ([k0 v0] & [= -> ->] & Hin). apply elem_of_map_to_list, map_filter_lookup_Some in Hin as [Hm Hp]. cbn in *. split; [eauto|]. by apply hit_spec.
Qed.
Lemma starting_le (m : kmap) (p : bytes) : starting m p <= size m.
Proof.
  unfold starting. rewrite <- (map_filter_union_complement (fun kv : list nat * V => p `prefix_of` kv.1) m) at 2.
  rewrite map_size_disj_union by apply map_disjoint_filter_complement. lia.
Qed.

Lemma leaves_count (h : heap V) (p : bytes) (t : art) (m : kmap) : rep h p t -> contents t m -> length (leaves t) = size m.
Proof.
  intros Hr Hc. pose proof (unterm_NoDup h p t Hr) as Hnd. assert (Hp : unterm (leaves t) ≡ₚ map_to_list m).
  { apply NoDup_Permutation; [by eapply NoDup_fmap_1|apply NoDup_map_to_list|]. intros [k v]. by rewrite (contents_unterm t m k v Hc), elem_of_map_to_list. }
  apply Permutation_length in Hp. unfold unterm in Hp. rewrite fmap_length in Hp. exact Hp.
Qed.
(** The keys that stay, as iteration sees them. *)
Lemma leaves_cat a pre lf (kids : list (nat * art)) : leaves (Art a pre lf kids) = lfl lf ++ concat (List.map (fun bt => leaves bt.2) kids).
Proof. apply leaves_eq. Qed.
Lemma prune_sublist g (t : art) : prune g t `sublist_of` leaves t.
Proof.
  induction t as [a pre lf kids IH] using art_ind'. rewrite leaves_cat. destruct kids as [|kd kids].
  { cbn [prune List.map concat]. rewrite app_nil_r. destruct lf as [[[la k] v]|]; cbn [lfl]; [|done]. rewrite filter_cons, filter_nil. case_decide; [done|]. apply sublist_nil_l. }
  rewrite prune_eq by done. apply sublist_app; [done|].
  revert IH. generalize (kd :: kids) as l. induction l as [|[b t] l IHl]; intros IH; cbn [List.map concat]; [done|].
  apply sublist_app; [apply (IH b); left|]. apply IHl. intros b' t' Hin. apply (IH b'). by right.
Qed.
Lemma prune_elem g a pre lf (kids : list (nat * art)) k v : (k, v) ∈ prune g (Art a pre lf kids) ->
  ((exists la, lf = Some (la, k, v)) /\ (kids = [] -> g k = false)) \/ exists b t, (b, t) ∈ kids /\ (k, v) ∈ prune g t.
Proof.
  destruct kids as [|kd kids].
  { cbn [prune]. rewrite elem_of_list_filter. intros [Hg Hin]. left. split; [|done].
    destruct lf as [[[la k0] v0]|]; [|by apply elem_of_nil in Hin]. apply elem_of_list_singleton in Hin as [= -> ->]. eauto. }
  rewrite prune_eq by done. rewrite elem_of_app. intros [Hin|Hin].
  - left. split; [|done]. destruct lf as [[[la k0] v0]|]; [|by apply elem_of_nil in Hin]. apply elem_of_list_singleton in Hin as [= -> ->]. eauto.
  - right. apply elem_of_list_In, in_concat in Hin as (l & Hl & Hin). apply in_map_iff in Hl as ([b t] & <- & Hb). exists b, t.
    split; by apply elem_of_list_In.
Qed.
Lemma prune_keep g (t : art) k v : (k, v) ∈ leaves t -> g k = false -> (k, v) ∈ prune g t.
Proof.
  intros Hin Hg. induction t as [a pre lf kids IH] using art_ind'. apply elem_leaves in Hin as [[la ->]|(b & t & Hb & Hin)].
  - destruct kids as [|kd kids]; [cbn [prune]; apply elem_of_list_filter; split; [done|left]|]. rewrite prune_eq by done. left.
  - rewrite prune_eq by (intros ->; by apply elem_of_nil in Hb). apply elem_of_app. right. apply elem_of_list_In, in_concat. exists (prune g t).
    split; [apply in_map_iff; exists (b, t); split; [done|by apply elem_of_list_In]|]. apply elem_of_list_In. by apply (IH b).
Qed.
Lemma prune_surv (h : heap V) key p (t : art) k v : rep h p t -> (k, v) ∈ prune (hit key) t -> surv key t k v.
Proof.
  revert p. induction t as [a pre lf kids IH] using art_ind'. intros p Hr Hin. pose proof Hr as Hr0.
  apply rep_inv in Hr as (n & Hn & Hlt & He & Hpl & Hlf & Hk1 & Hk2 & Hk3 & Hst & Hkids).
  apply prune_elem in Hin as [[[la ->] Hg]|(b & t & Hb & Hin)].
  - split; [apply elem_leaves; left; eauto|]. intros Hh. destruct kids as [|[b tk] kids']; [rewrite Hg in Hh by done; done|].
    destruct (Hk3 _ _ _ eq_refl) as [_ Hk3']. destruct (Hk3' ltac:(done)) as [Ekk Hd].
    destruct (rep_nonempty _ _ _ (Hkids b tk ltac:(left))) as (k2 & v2 & Hkv2).
    exists k2, v2. split; [apply elem_leaves; right; exists b, tk; split; [left|done]|].
    pose proof (rep_leaves_kid _ _ _ _ _ _ b tk _ _ Hr0 ltac:(left) Hkv2) as [y Ey]. rewrite Ekk, Ey. split.
    + intros E2. rewrite <- !app_assoc in E2. apply app_inv_head, app_inv_head in E2. injection E2 as -> _. apply Hd. left.
    + rewrite app_assoc, getKey_snoc. rewrite <- !app_assoc. apply prefix_app, prefix_app_r. done.
  - destruct (IH b t Hb _ (Hkids b t Hb) Hin) as [Hs1 Hs2]. split; [apply elem_leaves; right; eauto|].
    intros Hh. destruct (Hs2 Hh) as (k2 & v2 & Hin2 & Hx). exists k2, v2. split; [apply elem_leaves; right; eauto|done].
Qed.

(** What full iteration yields after DeletePrefix(p). *)
Definition dp_iter (m : kmap) (p : bytes) (l : list (bytes * V)) : Prop :=
  NoDup l.*1 /\ (orderly m -> ascending l) /\
  (forall k v, (k, v) ∈ l -> m !! k = Some v /\ (p `prefix_of` k -> shadowed m k)) /\
  (forall k v, m !! k = Some v -> ~ p `prefix_of` k -> (k, v) ∈ l).
Definition dp_reads (m : kmap) (p : bytes) (h : heap V) (a : addr) : Prop :=
  (forall k, is_bytes k -> getFrom h a k = Ok (go_zero, false) \/
     exists v, getFrom h a k = Ok (v, true) /\ m !! k = Some v /\ (p `prefix_of` k -> shadowed m k)) /\
  (narrow m -> forall k v, m !! k = Some v -> ~ p `prefix_of` k -> clear_of m p k -> getFrom h a k = Ok (v, true)) /\
  (narrow m -> (size m = 1 -> starting m p = 0) -> exists l, iterates h a [] l /\ dp_iter m p l).

Lemma contents_safe (t : art) (m : kmap) p k : contents t m -> (forall k0, is_Some (m !! k0) -> valid_key k0) -> is_Some (m !! k) ->
  ~ p `prefix_of` k -> clear_of m p k -> safe (getTreeKey p) t (k ++ [dollar]).
Proof.
  intros Hc Hval Hk Hpk Hcl k1 v1 Hk1 Hh. apply Hc in Hk1 as (k0 & -> & Hk0). apply hit_spec in Hh.
  assert (Hst : forall y, is_Some (m !! y) -> stored (y ++ [dollar])) by (intros y Hy; apply stored_tree; by apply Hval).
  destruct (Hcl k0 ltac:(eauto) Hh) as [Hlt|(k2 & q & [v2 Hk2] & Hne & Hq1 & Hq2 & Hqn)].
  - left. destruct (klt_plt _ _ Hlt) as [|Hp]; [done|]. exfalso. apply stored_prefix_free in Hp; [|by apply Hst|by apply Hst; eauto].
    apply app_inj_tail in Hp as [-> _]. done.
  - right. exists (k2 ++ [dollar]), v2, q. split; [apply Hc; eauto|]. split; [intros E; by apply app_inj_tail in E as [? _]|].
    split; [by apply prefix_app_r|]. split; [by apply prefix_app_r|]. intros Hq. apply Hqn. apply prefix_snoc_inv in Hq as [->|]; [|done].
    exfalso. assert (Hv : valid_key k0) by (apply Hval; eauto). destruct Hq1 as [z ->]. unfold valid_key in Hv. rewrite Forall_app, Forall_app in Hv.
    destruct Hv as [[_ Hv] _]. inversion Hv as [|? ? Hx _]. by destruct Hx.
Qed.

Lemma surv_shadowed (t : art) (m : kmap) p k v : contents t m -> (forall k0, is_Some (m !! k0) -> valid_key k0) -> surv (getTreeKey p) t (k ++ [dollar]) v ->
  m !! k = Some v /\ (p `prefix_of` k -> shadowed m k).
Proof.
  intros Hc Hval [Hs1 Hs2]. apply Hc in Hs1 as (k0 & E0 & Hk0). apply app_inj_tail in E0 as [<- _]. split; [done|]. intros Hp.
  destruct Hs2 as (k2 & v2 & Hk2 & Hne2 & Hp2); [by apply hit_spec|]. apply Hc in Hk2 as (k3 & -> & Hk3). rewrite getKey_snoc in Hp2.
  split; [eauto|]. exists k3. split; [eauto|]. split; [by intros ->|]. apply prefix_snoc_inv in Hp2 as [->|]; [|done].
  exfalso. assert (Hv : valid_key (k3 ++ [dollar])) by (apply Hval; eauto). unfold valid_key in Hv. rewrite Forall_app in Hv.
  destruct Hv as [_ Hv]. inversion Hv as [|? ? Hx' _]. by destruct Hx'.
Qed.
Lemma prune_iter (h : heap V) (t : art) (m : kmap) p : rep h [] t -> contents t m -> (forall k0, is_Some (m !! k0) -> valid_key k0) ->
  dp_iter m p (unterm (prune (hit (getTreeKey p)) t)).
Proof.
  intros Hr Hc Hval. pose proof (prune_sublist (hit (getTreeKey p)) t) as Hsub. pose proof (above_unterm_sub _ _ Hsub) as Hsubu. split; [|split; [|split]].
  - eapply nodup_sublist; [apply (fmap_sublist fst); exact Hsubu|]. by eapply (unterm_NoDup h).
  - intros Hhi. apply unterm_ascending. eapply ss_sublist; [exact Hsub|]. by eapply contents_ordered.
  - intros k v Hin. apply unterm_elem in Hin as (k1 & Hin & ->). pose proof (prune_surv _ _ _ _ _ _ Hr Hin) as Hs.
    pose proof Hs as [Hs1 _]. apply Hc in Hs1 as (k0 & -> & Hk0). rewrite getKey_snoc. by eapply surv_shadowed.
  - intros k v Hk Hp. apply unterm_elem. exists (k ++ [dollar]). rewrite getKey_snoc. split; [|done]. apply prune_keep; [apply Hc; eauto|].
    destruct (hit _ _) eqn:E; [|done]. by apply hit_spec in E.
Qed.

Lemma etxnDeletePrefix_spec (b : bool) (s : st V) (m : kmap) (x : nat) (p : bytes) : tstate b s m x -> m <> ∅ -> clean (s_h s) -> roomy m ->
  (N.of_nat (size m + x) < 2 ^ 64)%N ->
  wp (etxnDeletePrefix p) (fun r s' => r = negb (Nat.eqb (starting m p) 0) /\ t_size (s_t s') = N.of_nat (size m + x - starting m p) /\
    dp_reads m p (s_h s') (t_root (s_t s'))) s.
Proof.
  intros (Hh & Hsz & Htsz & Hx) Hne Hcl Hroom Hlt. pose proof (starting_le m p) as Hle.
  assert (Hval : forall k0, is_Some (m !! k0) -> valid_key k0) by (intros k0 [v0 Hk0]; by eapply (holds_valid (D := valid_dom))).
  destruct Hh as [->|t Hr Hnd Hroot Hc]; [done|].
  unfold etxnDeletePrefix. apply wp_bind, wp_getT. apply wp_bind, wp_getH. rewrite Hroot.
  eapply wp_use; [apply (dp_main (getTreeKey p) (walk_fuel (s_h s)) s [] t 0); [done|done| |by eapply contents_room|by eapply fp_walk]|].
  { intros a n Ha Hn. apply cl_stale. by apply (Hcl a n). }
  intros [nr num] s1 (Enum & HU & Hres). cbn [fst snd] in Enum, Hres. rewrite (pc_size _ _ _ _ Hr Hc) in Enum. subst num. cbn beta iota.
  destruct (upd_t _ _ _ HU) as [mx Et].
  eapply (wp_use _ _ (fun _ s2 => dp_reads m p (s_h s2) (t_root (s_t s2)) /\ t_size (s_t s2) = t_size (s_t s1) /\ t_tsize (s_t s2) = t_tsize (s_t s1))).
  { destruct nr as [a'|].
    - apply wp_bind, wp_getT, wp_putT. split; [|done]. cbn [s_h s_t stT t_root set_t_root]. destruct Hres as (Hw & Hf & Hv). split; [|split].
      + intros k Hk. destruct (wt_get _ _ _ _ k Hk Hw) as [|(v & E & Hs)]; [by left|]. right. exists v. split; [done|].
        eapply surv_shadowed; [done|done|]. exact Hs.
      + intros Hnar k v Hk Hpk Hcf. eapply fnd_get. apply (Hf ltac:(by eapply contents_narrowL) []); [done|apply Hc; eauto| |].
        * destruct (hit _ _) eqn:E; [|done]. by apply hit_spec in E.
        * eapply contents_safe; eauto.
      + intros Hnar _. destruct (Hv ltac:(by eapply contents_narrowL)) as (sz & Hsz' & Hcov).
        exists (unterm (prune (hit (getTreeKey p)) t)). split; [|by eapply prune_iter].
        eapply cov_iterates; [exact Hcov|]. pose proof (upd_next _ _ _ HU). pose proof (fp_bound _ _ _ Hr Hnd). lia.
    - apply installEmptyRoot_phantom. intros s2 Hph E1 E2. split; [|done]. destruct Hres as [(k1 & v1 & El & Hh1) _]. split; [|split].
      + intros k Hk. left. rewrite (holds_get false _ _ (∅ : kmap) k); [done|by apply holds_empty|done].
      + intros _ k v Hk Hpk _. exfalso. apply Hpk. assert (Hin : (k ++ [dollar], v) ∈ leaves t) by (apply Hc; eauto). rewrite El in Hin.
        apply elem_of_list_singleton in Hin as [= <- ->]. by apply hit_spec.
      + intros _ H2. exfalso. rewrite <- (leaves_count _ _ _ _ Hr Hc), El, <- (pc_size _ _ _ _ Hr Hc) in H2. unfold pc in H2. rewrite El in H2. cbn [List.filter fst] in H2. rewrite Hh1 in H2. by specialize (H2 eq_refl). }
  intros [] s2 (Hreads & E1 & E2). rewrite Et in E1, E2. cbn in E1, E2. destruct (Nat.eqb_spec (starting m p) 0) as [E0|E0]; cbn [negb].
  - apply wp_ret. split; [done|]. split; [|done]. rewrite E1, E0, Hsz. f_equal. lia.
  - apply wp_bind, wp_getT. apply wp_bind, wp_getT. cbv zeta. apply wp_bind, wp_putT, wp_ret. split; [done|]. split; [|done].
    cbn. rewrite E2, Htsz. apply u64_sub_nat; [lia|done].
Qed.

Lemma clean_enewTxn (h : heap V) t tx h1 : clean h -> enewTxn t h = (Ok tx, h1) -> clean h1.
Proof.
  intros Hc. unfold enewTxn, ecloneN, bind, hloadN. destruct (h_nodes h !! r_root t) as [n|] eqn:En; [|done]. cbn. intros [= _ <-].
  intros a n'. cbn. rewrite lookup_insert_Some. intros [[<- <-]|[_ Ha]].
  - destruct (Hc _ _ En) as [Hcl _]. split; [by eapply cl_same; [..|exact Hcl]|lia].
  - destruct (Hc _ _ Ha). split; [done|lia].
Qed.

Lemma deletePrefix_ok (m : kmap) h t (x : nat) (p : bytes) : tree_ok (er_h h) t m x -> m <> ∅ -> clean (er_h h) -> roomy m ->
  (N.of_nat (size m + x) < 2 ^ 64)%N ->
  exists h' t', treeDeletePrefix t p h = (Ok (t', negb (Nat.eqb (starting m p) 0)), h') /\
    r_size t' = N.of_nat (size m + x - starting m p) /\ dp_reads m p (er_h h') (r_root t').
Proof.
  intros (Hh & Hsz & Hx) Hne Hcl Hroom Hlt.
  assert (Hw : wp (treeDeletePrefix t p) (fun r h' => r.2 = negb (Nat.eqb (starting m p) 0) /\ r_size r.1 = N.of_nat (size m + x - starting m p) /\
     dp_reads m p (er_h h') (r_root r.1)) h).
  { apply (hsim_wp _ _ h (fun r h' => r.2 = negb (Nat.eqb (starting m p) 0) /\ r_size r.1 = N.of_nat (size m + x - starting m p) /\
     dp_reads m p h' (r_root r.1)) (hsim_withTxn t _ _ (sim_txnDeletePrefix p))).
    unfold wp, ewithTxn. destruct (enewTxn_spec false _ t m Hh) as (r1 & h1 & E1 & Hh1). rewrite E1.
    set (s1 := mkS h1 _). assert (Ht : tstate true s1 m x) by (split; [exact Hh1|done]).
    pose proof (etxnDeletePrefix_spec true s1 m x p Ht Hne (clean_enewTxn _ _ _ _ Hcl E1) Hroom Hlt) as Hw. unfold wp in Hw.
    destruct (etxnDeletePrefix p s1) as [[a| |] s2]; [|done..]. exact Hw. }
  apply wp_elim in Hw as ([t' r] & h' & E & Hr & Hs & Hd). cbn [fst snd] in *. subst r. eauto 10.
Qed.
End DelPre4.
