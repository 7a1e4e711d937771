(** Reads on a heap that holds a map. *)
From Verif Require Export ReadRep.
Local Open Scope nat_scope.

Section ReadTop.
Context {V : Type} `{GoZero V} {D : KeyDom}.
Notation art := (art V).
Notation kmap := (gmap (list nat) V).

Lemma has_prefix_term k0 p : last p <> Some dollar -> has_prefix (k0 ++ [dollar]) p = has_prefix k0 p.
Proof.
  intros Hl. apply eq_true_iff_eq. rewrite !has_prefix_true. split.
  - intros [x E]. destruct x as [|y x _] using rev_ind.
    + rewrite app_nil_r in E. subst p. by rewrite last_snoc in Hl.
    + rewrite app_assoc in E. apply app_inj_tail in E as [-> _]. by exists x.
  - intros [x ->]. exists (x ++ [dollar]). by rewrite app_assoc.
Qed.
Lemma unterm_elem (l : list (bytes * V)) k v : (k, v) ∈ unterm l <-> exists k1, (k1, v) ∈ l /\ k = getKey k1.
Proof.
  unfold unterm. rewrite elem_of_list_fmap. split.
  - intros ([k1 v1] & [= -> ->] & Hin). eauto.
  - intros (k1 & Hin & ->). by exists (k1, v).
Qed.
Lemma contents_unterm (t : art) (m : kmap) (k : bytes) v : contents t m -> (k, v) ∈ unterm (leaves t) <-> m !! k = Some v.
Proof.
  intros Hc. rewrite unterm_elem. split.
  - intros (k1 & Hin & ->). apply Hc in Hin as (k0 & -> & Hm). by rewrite getKey_snoc.
  - intros Hm. exists (k ++ [dollar]). rewrite getKey_snoc. split; [|done]. apply Hc. eauto.
Qed.
Lemma unterm_NoDup (h : heap V) p (t : art) : rep h p t -> NoDup (unterm (leaves t)).*1.
Proof.
  intros Hr. pose proof (rep_keys_NoDup h p t Hr) as Hnd. unfold unterm. rewrite <- list_fmap_compose.
  replace ((fst ∘ (fun kv : bytes * V => (getKey kv.1, kv.2))) <$> leaves t) with (getKey <$> (leaves t).*1) by (by rewrite <- list_fmap_compose).
  apply NoDup_fmap_2_strong; [|done]. intros k1 k2 H1 H2 E. apply elem_of_list_fmap in H1 as ([k1' v1] & -> & H1). apply elem_of_list_fmap in H2 as ([k2' v2] & -> & H2).
  cbn [fst] in *. destruct (rep_stored _ _ _ _ _ Hr H1) as (k0 & -> & _). destruct (rep_stored _ _ _ _ _ Hr H2) as (k0' & -> & _). rewrite !getKey_snoc in E. by rewrite E.
Qed.
Lemma NoDup_sublist {A} (l1 l2 : list A) : l1 `sublist_of` l2 -> NoDup l2 -> NoDup l1.
Proof.
  induction 1 as [|x l1 l2 Hs IH|x l1 l2 Hs IH]; intros Hn; [done| |]; apply NoDup_cons in Hn as [Hx Hn]; [|auto].
  apply NoDup_cons. split; [|auto]. intros Hin. apply Hx. by eapply elem_of_submseteq, sublist_submseteq.
Qed.
Lemma unterm_filter_sub (P : bytes * V -> Prop) `{forall x, Decision (P x)} l : (unterm (filter P l)).*1 `sublist_of` (unterm l).*1.
Proof.
  unfold unterm. induction l as [|x l IH]; [done|]. rewrite filter_cons. destruct (decide (P x)); cbn; by constructor.
Qed.
Lemma unterm_ascending l : StronglySorted klt' l -> ascending (unterm (V:=V) l).
Proof.
  induction 1 as [|x l Hs IH Hx]; [constructor|]. constructor; [done|]. unfold klt' in Hx. apply Forall_fmap. eapply Forall_impl; [exact Hx|]. done.
Qed.
Lemma contents_ordered (h : heap V) p (t : art) m : rep h p t -> contents t m -> orderly m -> StronglySorted klt' (leaves t).
Proof.
  intros Hr Hc Hm. eapply rep_ordered; [done|]. intros k v k' v' c x Hin Hin'. apply Hc in Hin as (k0 & -> & Hk). apply Hc in Hin' as (k1 & -> & Hk').
  rewrite !getKey_snoc. intros ->. eauto.
Qed.

(** SeekPrefix and Next *)
Lemma phantom_iterates b (h : heap V) a p : phantom b h a -> is_bytes p -> p <> [] -> iterates h a p [].
Proof.
  intros (n & la & l & Hn & Hlt & He & Hpl & Hch & Hlf & Hla & Hl & Hk & Hne & Hb) Hp Hpne.
  exists (mkIt p (Some (RN a)) (Some [Some (RN a)])). split.
  - unfold seekPrefix, newIter. cbn [it_node]. replace (length p + 2) with (S (length p + 1)) by lia. cbn [seekLoop]. rewrite Hn, Hpl.
    cbn [Nat.ltb Nat.leb]. rewrite andb_false_r. cbn [obind]. destruct p as [|c p]; [done|]. cbn [lookup list_lookup].
    rewrite (findChild_None n [] c); [done|done| |done]. unfold is_bytes in Hp. by apply Forall_cons in Hp as [? _].
  - eapply yields_nil. unfold iterNext. cbn [it_path it_stack stackOf default id]. unfold walk_fuel. destruct (h_next h) as [|x]; [lia|]. cbn [Nat.add].
    replace (S (S x + 1)) with (S (S (x + 1))) by lia. cbn [nextLoop]. rewrite Hn, Hlf, Hl, Hk, hasPrefix_has.
    rewrite (enc_iterChildren _ _ He). destruct p as [|c p]; [done|]. cbn. done.
Qed.
Lemma holds_iterates (b : bool) (h : heap V) (a : addr) (m : kmap) (p : bytes) : holds b h a m -> is_bytes p -> last p <> Some dollar -> (m = ∅ -> p <> []) ->
  exists l, iterates h a p l /\ pairs_with m p l /\ (orderly m -> ascending l).
Proof.
  intros Hh Hp Hlast Hmp. destruct Hh as [-> Hph|t Hr Hnd -> Hc].
  - exists []. split; [by eapply phantom_iterates; eauto|]. split; [|intros; constructor]. split; [constructor|].
    intros k v. rewrite lookup_empty, elem_of_nil. naive_solver.
  - destruct (seekLoop_spec h p Hp t (length p + 2) [] Hr Hnd ltac:(cbn; lia)) as (t' & p' & E & Hr' & Hl' & Hf). specialize (Hf Hlast).
    set (P := fun kv : bytes * V => hasPrefix kv.1 p = true) in *.
    exists (unterm (filter P (leaves t))). split; [|split].
    + exists (mkIt p (Some (RN (aroot t'))) (Some [Some (RN (aroot t'))])). split.
      * unfold seekPrefix, newIter. cbn [it_node]. cbn [length] in E. by rewrite E.
      * rewrite <- Hf. replace (leaves t') with (sl [t']) by (unfold sl; cbn; by rewrite app_nil_r).
        apply (iterNext_yields h p _ [t']); [repeat constructor; eauto|]. unfold sfp. cbn [List.map concat]. rewrite app_nil_r.
        pose proof (fp_walk _ _ _ Hr Hnd). unfold walk_fuel in *. pose proof (fp_bound _ _ _ Hr Hnd). lia.
    + split.
      * eapply NoDup_sublist; [apply unterm_filter_sub|by eapply unterm_NoDup].
      * intros k v. rewrite <- (contents_unterm t m k v Hc), !unterm_elem. split.
        -- intros (k1 & Hin & ->). apply elem_of_list_filter in Hin as [HP Hin]. split; [eauto|]. unfold P in HP. cbn in HP. rewrite hasPrefix_has in HP.
           destruct (rep_stored _ _ _ _ _ Hr Hin) as (k0 & -> & _). rewrite getKey_snoc. by rewrite has_prefix_term in HP.
        -- intros [(k1 & Hin & ->) HP]. exists k1. split; [|done]. apply elem_of_list_filter. split; [|done]. unfold P. cbn. rewrite hasPrefix_has.
           destruct (rep_stored _ _ _ _ _ Hr Hin) as (k0 & -> & _). rewrite getKey_snoc in HP. by rewrite has_prefix_term.
    + intros Hm. apply unterm_ascending, ss_filter. by eapply contents_ordered.
Qed.

(** The path iterator *)
Lemma phantom_path b (h : heap V) a p : phantom b h a -> yields (pathNext h) (newPathIter a p) [].
Proof.
  intros (n & la & l & Hn & Hlt & He & Hpl & Hch & Hlf & Hla & Hl & Hk & Hne & Hb).
  eapply yields_nil. unfold pathNext, newPathIter. cbn [pi_path pi_stack]. unfold walk_fuel. destruct (h_next h) as [|[|x]]; [lia|lia|]. cbn [Nat.add].
  cbn [pathNextLoop]. rewrite Hn, Hlf, (enc_iterChildren _ _ He). cbn [fmap list_fmap omap list_omap app pathNextLoop]. rewrite Hl, Hk.
  unfold prefixContainsMatch. cbn [length Nat.eqb]. rewrite orb_true_r. by replace (x + 1) with (S x) by lia.
Qed.
Lemma holds_path (b : bool) (h : heap V) (a : addr) (m : kmap) (p : bytes) : holds b h a m ->
  exists l, yields (pathNext h) (newPathIter a p) l /\ pairs_on_path m p l /\ (orderly m -> shortest_first l).
Proof.
  intros [-> Hph|t Hr Hnd -> Hc].
  - exists []. split; [by eapply phantom_path|]. split; [|intros; constructor]. split; [constructor|].
    intros k v. rewrite lookup_empty, elem_of_nil. naive_solver.
  - set (P := fun kv : bytes * V => prefixContainsMatch kv.1 (getTreeKey p) = true).
    assert (HP : forall k1 v, (k1, v) ∈ leaves t -> P (k1, v) <-> has_prefix p (getKey k1) = true).
    { intros k1 v Hin. unfold P. cbn. destruct (rep_stored _ _ _ _ _ Hr Hin) as (k0 & -> & _). unfold prefixContainsMatch, getTreeKey.
      rewrite !app_length. cbn [length]. rewrite !Nat.add_1_r. cbn [Nat.eqb orb]. by rewrite !getKey_snoc. }
    exists (unterm (filter P (leaves t))). split; [|split].
    + replace (leaves t) with (isl [SN t]) by (unfold isl; cbn; by rewrite app_nil_r).
      apply (pathNext_yields h (getTreeKey p) [SN t]); [repeat constructor; cbn; eauto|]. unfold isfp. cbn [List.map concat ifp]. rewrite app_nil_r.
      pose proof (fp_bound _ _ _ Hr Hnd). lia.
    + split.
      * eapply NoDup_sublist; [apply unterm_filter_sub|by eapply unterm_NoDup].
      * intros k v. rewrite <- (contents_unterm t m k v Hc), !unterm_elem. split.
        -- intros (k1 & Hin & ->). apply elem_of_list_filter in Hin as [Hx Hin]. split; [eauto|]. by apply (HP k1 v).
        -- intros [(k1 & Hin & ->) Hx]. exists k1. split; [|done]. apply elem_of_list_filter. split; [|done]. by apply HP.
    + intros Hm. assert (Ha : ascending (unterm (filter P (leaves t)))) by (apply unterm_ascending, ss_filter; by eapply contents_ordered).
      eapply ss_mono; [|exact Ha]. intros [k1 v1] [k2 v2] H1 H2 Hk. cbn in *.
      apply (klt_prefix_length k1 k2 p); [| |done].
      * apply unterm_elem in H1 as (k' & Hin & ->). apply elem_of_list_filter in Hin as [Hx Hin]. by apply has_prefix_true, (HP k' v1).
      * apply unterm_elem in H2 as (k' & Hin & ->). apply elem_of_list_filter in Hin as [Hx Hin]. by apply has_prefix_true, (HP k' v2).
Qed.

(** Minimum and Maximum *)
Lemma holds_minmax (b : bool) (h : heap V) (t : rtree) (m : kmap) : holds b h (r_root t) m -> m <> ∅ ->
  exists k v k' v', treeMinimum h t = Ok (Some (k, v)) /\ treeMaximum h t = Ok (Some (k', v')) /\
    m !! k = Some v /\ m !! k' = Some v' /\ (orderly m -> least m k v /\ greatest m k' v').
Proof.
  intros [-> Hph|tr Hr Hnd Ea Hc] Hm; [done|]. pose proof (fp_walk _ _ _ Hr Hnd) as Hw.
  destruct (minimum_node (walk_fuel h) h [] tr Hr Hw) as (la & l & k & v & L & E & Hl & Hk & Hv & HL).
  destruct (maximum_node (walk_fuel h) h [] tr Hr Hw) as (la' & l' & k' & v' & L' & E' & Hl' & Hk' & Hv' & HL').
  destruct (rep_stored _ _ _ k v Hr) as (k0 & -> & _); [rewrite HL; left|].
  destruct (rep_stored _ _ _ k' v' Hr) as (k0' & -> & _); [rewrite HL'; apply elem_of_app; right; left|].
  assert (H1 : m !! k0 = Some v). { destruct (proj1 (Hc (k0 ++ [dollar]) v)) as (k1 & E1 & H1); [rewrite HL; left|]. by apply app_inj_tail in E1 as [<- _]. }
  assert (H2 : m !! k0' = Some v'). { destruct (proj1 (Hc (k0' ++ [dollar]) v')) as (k1 & E1 & H2); [rewrite HL'; apply elem_of_app; right; left|]. by apply app_inj_tail in E1 as [<- _]. }
  exists k0, v, k0', v'. unfold treeMinimum, treeMaximum. rewrite Ea, E, E'. cbn [obind leafKV]. rewrite Hl, Hl', Hk, Hk', Hv, Hv', !getKey_snoc.
  split_and!; [done..|]. intros Hhi. pose proof (contents_ordered _ _ _ _ Hr Hc Hhi) as Hs. split; (split; [done|]); intros k1 [v1 Hk1];
    (assert (Hin : (k1 ++ [dollar], v1) ∈ leaves tr) by (apply Hc; eauto)).
  - rewrite HL in Hs, Hin. apply StronglySorted_inv in Hs as [_ Hf]. apply elem_of_cons in Hin as [[= E1 _]|Hin]; [left; by apply app_inj_tail in E1 as [-> _]|].
    right. rewrite Forall_forall in Hf. specialize (Hf _ Hin). unfold klt' in Hf. cbn in Hf. by rewrite !getKey_snoc in Hf.
  - rewrite HL' in Hs, Hin. apply elem_of_app in Hin as [Hin|Hin]; [|left; apply elem_of_list_singleton in Hin as [= E1 _]; by apply app_inj_tail in E1 as [-> _]].
    right. pose proof (elem_of_StronglySorted_app _ _ _ _ _ Hs Hin ltac:(left)) as Hf. unfold klt' in Hf. cbn in Hf. by rewrite !getKey_snoc in Hf.
Qed.
End ReadTop.
