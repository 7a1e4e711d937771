(** GetWatch on an absent key: the lookup ends at a node on the path of the key. *)
From Verif Require Export NodeWorld.
From Verif Require Import Observe PropWorld PropHist.
From stdpp Require Import list.
Local Open Scope nat_scope.

Section Absent.
Context {V : Type} `{GoZero V}.
Notation kmap := (gmap (list nat) V).

(** The leaves of t that share ten bytes with key follow key all the way. *)
Definition no_twin (t : art V) (key : bytes) : Prop := forall k1 v1 q q', (k1, v1) ∈ leaves t -> maxPrefixLen <= length q -> nodollar q -> q `prefix_of` key -> q `prefix_of` k1 ->
  q' `prefix_of` k1 -> nodollar q' -> q' `prefix_of` key.
Lemma prefix_take (x : bytes) i : take i x `prefix_of` x.
Proof. exists (drop i x). by rewrite take_drop. Qed.
Lemma searchExit_missing (h : heap V) key a n x : searchExit h key a n = Ok (Missing x) -> x = a.
Proof.
  unfold searchExit. destruct (ownLeaf h key n) as [[la|]| |]; cbn [obind]; [done| |done..]. destruct (scanChildren _ _ _) as [[la|]| |]; cbn [obind]; [done| |done..]. by intros [= <-].
Qed.
Lemma search_path (h : heap V) key t : is_bytes key -> forall fuel p x, rep h p t -> no_twin t key -> p `prefix_of` key ->
  search fuel h (aroot t) key (length p) = Ok (Missing x) -> exists r, noded p t x r /\ r `prefix_of` key.
Proof.
  intros Hkb. induction t as [a pre lf kids IH] using art_ind'. intros fuel p x Hr Hnt Hpk E.
  destruct fuel as [|fuel]; [done|]. cbn [search aroot] in E. pose proof Hr as Hr0.
  apply rep_inv in Hr as (n & Hn & Hlt & He & Hpl & Hlf & Hk1 & Hk2 & Hk3 & Hst & Hkids).
  rewrite Hn, (rep_isLeaf _ _ _ _ _ _ _ Hr0 Hn) in E.
  assert (Hexit : searchExit h key a n = Ok (Missing x) -> exists r, noded p (Art a pre lf kids) x r /\ r `prefix_of` key).
  { intros ->%searchExit_missing. exists p. split; [constructor|done]. }
  assert (Hfc : forall c, c ∈ key -> alook (ents kids) c = None -> findChild n c = Ok (None, 0)).
  { intros c Hc. eapply findChild_None; [done|]. unfold is_bytes in Hkb. rewrite Forall_forall in Hkb. by apply Hkb. }
  destruct (if bool_decide (kids = []) then ownLeaf h key n else Ok None) as [[la|]| |]; cbn [obind] in E; [done| |done..].
  destruct (if Nat.ltb 0 (n_plen n) then checkPrefix (n_partial n) (n_plen n) key (length p) else Ok 0) as [pl| |] eqn:Epl; cbn [obind] in E; [|done..].
  destruct (Nat.ltb 0 (n_plen n) && negb (Nat.eqb pl (maxPrefixLen `min` n_plen n))) eqn:Eb; [by apply Hexit|]. cbv zeta in E.
  destruct (key !! (length p + n_plen n)) as [c|] eqn:Ec; [|by apply Hexit].
  destruct (alook (ents kids) c) as [ca|] eqn:Eal; [|rewrite Hfc in E; [by apply Hexit|by eapply elem_of_list_lookup_2|done]].
  assert (Hne : kids <> []) by (by intros ->). destruct (Hk1 Hne) as (Hpn & Hpt & Hnd). apply opn_nodollar in Hnd. rewrite Hpn in *.
  assert (Hpp : (p ++ pre) `prefix_of` key).
  { destruct Hpk as [rest ->]. apply prefix_app. destruct pre as [|b0 pre0]; [apply prefix_nil|]. set (pre := b0 :: pre0) in *.
    replace (Nat.ltb 0 (length pre)) with true in Epl, Eb by done. cbn [andb] in Eb. apply negb_false_iff, Nat.eqb_eq in Eb.
    rewrite checkPrefix_ok, drop_app in Epl by done. injection Epl as Epl. rewrite Eb in Epl.
    assert (Ht : take maxPrefixLen pre `prefix_of` rest).
    { rewrite <- Hpt. apply lcp_full. rewrite lcp_take_l', take_length, Hpl. lia. }
    destruct (Nat.le_gt_cases (length pre) maxPrefixLen) as [Hle|Hgt]; [by rewrite take_ge in Ht|].
    apply alook_split in Eal as (l1 & l2 & El). apply ents_split_cons in El as (k1 & t & k2 & -> & _ & _ & Ert).
    assert (Hct : (c, t) ∈ k1 ++ (c, t) :: k2) by (apply elem_of_app; right; left). pose proof (Hkids c t Hct) as Hrt.
    destruct (noded_leaf h (p ++ pre ++ [c]) t (aroot t) (p ++ pre ++ [c]) Hrt) as (kl & vl & Hin & Hkl); [destruct t; constructor|].
    assert (Hpkl : (p ++ pre) `prefix_of` kl) by (etransitivity; [|exact Hkl]; rewrite app_assoc; by eexists).
    assert (Hin' : (kl, vl) ∈ leaves (Art a pre lf (k1 ++ (c, t) :: k2))) by (apply elem_leaves; right; eauto).
    assert (Hq : (p ++ take maxPrefixLen pre) `prefix_of` (p ++ pre)) by (apply prefix_app, prefix_take).
    assert (Hx : (p ++ pre) `prefix_of` (p ++ rest)).
    { eapply (Hnt kl vl (p ++ take maxPrefixLen pre)); [exact Hin'|rewrite app_length, take_length; lia| |by apply prefix_app|by etransitivity|done|done].
      unfold nodollar in *. destruct Hq as [y Hq]. rewrite Hq in Hnd. by apply Forall_app in Hnd as [? _]. }
    by apply prefix_app_inv in Hx. }
  apply alook_split in Eal as (l1 & l2 & El). destruct (enc_set n l1 c ca l2) as (idx & Hf & _); [by rewrite <- El|].
  rewrite Hf in E. cbn [obind] in E. apply ents_split_cons in El as (k1 & t & k2 & -> & _ & _ & Ert).
  assert (Hct : (c, t) ∈ k1 ++ (c, t) :: k2) by (apply elem_of_app; right; left).
  destruct (IH c t Hct fuel (p ++ pre ++ [c]) x (Hkids c t Hct)) as (r & Hno & Hrk).
  { intros k0 v0 q q' Hin. apply (Hnt k0 v0 q q'). apply elem_leaves. right. eauto. }
  { destruct Hpp as [y ->]. rewrite <- app_assoc, lookup_app_r, lookup_app_r in Ec by lia. replace (length p + length pre - length p - length pre) with 0 in Ec by lia.
    destruct y as [|z y]; [done|]. cbn in Ec. injection Ec as ->. exists y. by rewrite <- !app_assoc. }
  { rewrite Ert, !app_length. cbn [length]. by rewrite Nat.add_assoc. }
  exists r. split; [by econstructor|done].
Qed.
Lemma twin_leaves t m k : contents t m -> valid_key k -> (forall k', is_Some (m !! k') -> valid_key k') -> no_long_twin m k -> no_twin t (getTreeKey k).
Proof.
  intros Hc Hv Hvm Hm k1 v1 q q' Hin Hlq Hdq Hqk Hqk1 Hq' Hd'. apply Hc in Hin as (k0 & -> & Hk0).
  assert (Hs : forall z y, nodollar z -> z `prefix_of` (y ++ [dollar]) -> z `prefix_of` y).
  { intros z y Hz [u Hu]. destruct (decide (u = [])) as [->|Hne].
    - rewrite app_nil_r in Hu. exfalso. unfold nodollar in Hz. rewrite <- Hu, Forall_app in Hz. destruct Hz as [_ Hz]. by apply Forall_cons in Hz as [? _].
    - destruct (exists_last Hne) as (u' & b & ->). rewrite app_assoc in Hu. apply app_inj_tail in Hu as [-> _]. by eexists. }
  apply Hs in Hqk; [|done]. apply Hs in Hqk1; [|done]. apply Hs in Hq'; [|done]. unfold maxPrefixLen in Hlq.
  assert (Hk : k0 `prefix_of` k).
  { apply Hm; [by eexists| |].
    - apply prefix_length in Hqk. lia.
    - destruct Hqk as [y ->]. rewrite take_app_le by lia. etransitivity; [apply prefix_take|done]. }
  unfold getTreeKey. etransitivity; [exact Hq'|]. etransitivity; [exact Hk|]. by eexists.
Qed.

Lemma getWatch_path c b (h : heap V) root m k v h' : holds b (er_h h) root m -> valid_key k -> no_long_twin m k -> CBh h ->
  getWatchFrom root k h = (Ok (c, v, false), h') -> c < h_nextch h' /\ on_path c h' root m (getTreeKey k).
Proof.
  intros Hh Hv Hm Hcb E. assert (Hkb : is_bytes k) by (eapply Forall_impl; [exact Hv|by intros ? [? _]]). destruct (holds_watch _ _ _ _ k Hh Hkb) as (c0 & h0 & E0 & Eh). rewrite E in E0.
  assert (h0 = h') as -> by congruence. clear E0. unfold getWatchFrom, bind, lift in E. destruct (search (search_fuel (getTreeKey k)) h root (getTreeKey k) 0) as [[la|x]| |] eqn:Es; [| |done..].
  { unfold hloadL in E. destruct (h_leaves h !! la) as [l|]; [|done]. destruct (getMutateChL la h) as [[c1| |] h1]; [|done..]. by injection E. }
  destruct (getMutateChN x h) as [[c1| |] h1] eqn:Eg; [|done..]. unfold ret in E. injection E as -> _ ->.
  split; [by eapply gm_bound|]. destruct (getMutateChN_gets _ _ _ _ Eg) as (n & Hn & Hc).
  pose proof (getTreeKey_bytes k Hkb) as Htk. pose proof (holds_valid b (er_h h) root m) as Hvm.
  destruct Hh as [-> Hp|t Hr Hnd Ea Hct].
  - left. rewrite <- er_search in Es. unfold search_fuel in Es. replace (length (getTreeKey k) + 2) with (S (length (getTreeKey k) + 1)) in Es by lia.
    rewrite (phantom_search b) in Es; [|done|done|by destruct k]. injection Es as <-. split; [|eauto]. change (h_next h') with (h_next (er_h h')). rewrite Eh.
    by destruct Hp as (? & ? & ? & ? & ? & _).
  - right. pose proof (rep_uner _ _ _ Hr) as Hr'. rewrite Ea in Es.
    destruct (search_path h (getTreeKey k) t Htk (search_fuel (getTreeKey k)) [] x Hr') as (q & Hno & Hq); [|apply prefix_nil|exact Es|].
    { eapply twin_leaves; [exact Hct|done| |done]. intros k' [w Hw]. eapply Hvm; [|exact Hw]. by eapply holds_tree. }
    exists t, x, q. split_and!; try done; [apply rep_uner; by rewrite Eh|]. split; [|eauto].
    change (h_next h') with (h_next (er_h h')). rewrite Eh. eapply rep_fp; [exact Hr|by eapply noded_fp].
Qed.

(** ** The reference maps of a history are determined *)
Definition same_maps (g g' : gstate V) : Prop := (g_trees g).*1 = (g_trees g').*1 /\ (g_txns g).*1.*1 = (g_txns g').*1.*1.
Lemma same_tree g g' i : same_maps g g' -> fst <$> g_trees g !! i = fst <$> g_trees g' !! i.
Proof. intros [E _]. by rewrite <- !list_lookup_fmap, E. Qed.
Lemma same_txn g g' j : same_maps g g' -> (fun x => x.1.1) <$> g_txns g !! j = (fun x => x.1.1) <$> g_txns g' !! j.
Proof.
  intros [_ E]. assert (Hx : forall l : list (kmap * nat * bool), l.*1.*1 = (fun x => x.1.1) <$> l) by (intros l; by rewrite <- list_fmap_compose).
  rewrite !Hx in E. by rewrite <- !list_lookup_fmap, E.
Qed.
Lemma same_add_tree g g' t t' : same_maps g g' -> t.1 = t'.1 -> same_maps (add_tree g t) (add_tree g' t').
Proof. intros [E1 E2] Et. split; cbn; [|done]. by rewrite !fmap_app, E1; cbn; rewrite Et. Qed.
Lemma same_add_txn g g' t t' : same_maps g g' -> t.1.1 = t'.1.1 -> same_maps (add_txn g t) (add_txn g' t').
Proof. intros [E1 E2] Et. split; cbn; [done|]. by rewrite !fmap_app, E2; cbn; rewrite Et. Qed.
Lemma same_on_tree i o g1 g2 g1' g2' : same_maps g1 g2 -> on_tree g1 i o g1' -> on_tree g2 i o g2' -> same_maps g1' g2'.
Proof.
  intros Hs. pose proof (same_tree _ _ i Hs) as Ei. unfold on_tree. destruct (g_trees g1 !! i) as [[m d]|], (g_trees g2 !! i) as [[m' d']|]; try done.
  - cbn in Ei. injection Ei as ->. intros (d1 & _ & ->) (d2 & _ & ->). by apply same_add_tree.
  - by intros -> ->.
Qed.
Lemma same_on_txn j o g1 g2 g1' g2' : same_maps g1 g2 -> on_txn g1 j o g1' -> on_txn g2 j o g2' -> same_maps g1' g2'.
Proof.
  intros Hs. pose proof (same_txn _ _ j Hs) as Ei. unfold on_txn. destruct (g_txns g1 !! j) as [[[m d] f]|], (g_txns g2 !! j) as [[[m' d'] f']|]; try done.
  - cbn in Ei. injection Ei as ->. intros (d1 & _ & _ & ->) (d2 & _ & _ & ->). destruct Hs as [E1 E2]. split; [done|]. cbn. by rewrite !list_fmap_insert, E2.
  - by intros -> ->.
Qed.
Lemma same_step d g1 g2 g1' g2' : same_maps g1 g2 -> gstep d g1 g1' -> gstep d g2 g2' -> same_maps g1' g2'.
Proof.
  intros Hs S1 S2. destruct d; cbn [gstep] in S1, S2; try (by eapply same_on_tree); try (by eapply same_on_txn);
    try (by rewrite (proj2 S1), (proj2 S2)); rewrite S1, S2; try done; try (by apply same_add_tree);
    try (pose proof (same_tree _ _ i Hs) as Ei; destruct (g_trees g1 !! i), (g_trees g2 !! i); try done; cbn in Ei; injection Ei as Ei; by first [apply same_add_tree|apply same_add_txn]);
    try (pose proof (same_txn _ _ j Hs) as Ei; destruct (g_txns g1 !! j), (g_txns g2 !! j); try done; cbn in Ei; injection Ei as Ei; by first [apply same_add_tree|apply same_add_txn]).
Qed.
Lemma covered_same (cs : list (call V)) g g' : covered cs g -> covered cs g' -> same_maps g g'.
Proof.
  intros Hc. revert g'. induction Hc as [|cs g c g1 Hc IH Hg]; intros g' Hc'.
  - inversion Hc' as [|cs' g2 c' g3 H1 H2 E]; [done|]. by destruct cs'.
  - destruct (covered_snoc_inv _ _ _ Hc' _ eq_refl) as (g0 & Hc0 & Hg0). eapply same_step; [by apply IH|exact Hg|exact Hg0].
Qed.

Theorem absent_fires i k c v cs1 mid rs1 w1 body g rs w g1 m d :
  let before := cs1 ++ CGetWatch i k :: mid in let j := length (w_txns w1) in let cs := before ++ CTxn i :: body ++ [CCommit j] in
  covered cs g -> disciplined cs -> small cs -> covered cs1 g1 -> g_trees g1 !! i = Some (m, d) -> valid_key k -> no_long_twin m k ->
  exec before w_init = (rs1, w1) -> rs1 !! length cs1 = Some (Ok (RWatch c v false)) ->
  fair j (cs1 ++ [CGetWatch i k]) (mid ++ CTxn i :: body) -> tracked_change j body k -> exec cs w_init = (rs, w) -> c ∈ h_closed (w_h w).
Proof.
  intros before j cs Hc Hd Hs Hc1 Hm Hv Htw E1 Hr Hf Ht E. eapply (path_fires c i (getTreeKey k) k v false (CGetWatch i k)); try done.
  clear - Hc1 Hm Hv Htw. intros g rs w Hc Hd Hs E Hr.
  destruct (at_call _ _ _ _ _ Hc Hd Hs E) as (g0 & rs0 & w0 & r & Hc0 & Hg & E0 & Es & -> & Wk & Hn & K1 & K2).
  assert (Hl : length rs0 = length cs1) by (eapply exec_length; exact E0). rewrite lookup_app_r, Hl, Nat.sub_diag in Hr by lia. cbn in Hr. injection Hr as ->.
  destruct Hg as [_ ->]. cbn [step] in Es. unfold withTree in Es. destruct (w_trees w0 !! i) as [t|] eqn:Hi; [|done].
  destruct Wk as [L1 L2 WT WX]. destruct (lookup_lt_is_Some_2 (g_trees g0) i) as [[m0 dd] Eu]; [apply lookup_lt_Some in Hi; lia|]. destruct (WT _ _ _ Hi Eu) as (y & (Hh & _) & _).
  pose proof (same_tree _ _ i (covered_same _ _ _ Hc0 Hc1)) as Em. rewrite Eu, Hm in Em. cbn in Em. injection Em as ->.
  exists t, m, dd. split; [by apply K1|]. split; [done|].
  unfold onHeap, treeGetWatch in Es. destruct (getWatchFrom (r_root t) k (w_h w0)) as [[[[c1 v1] b1]| |] h'] eqn:Eg; [|done..]. injection Es as F1 F2 F3 <-. cbn in F1, F2, F3. subst. cbn.
  eapply getWatch_path; [exact Hh|exact Hv|exact Htw| |exact Eg]. eapply exec_CB; [apply CB_init|exact E0].
Qed.
End Absent.
