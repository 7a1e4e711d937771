(** When SeekReverseLowerBound returns. *)
From Verif Require Export ReadRev ReadLow2 AbsDel2.
Local Open Scope nat_scope.

Section ReadRev2.
Context {V : Type} `{GoZero V}.
Notation art := (art V).

(** All nodes of the tree have a partialLen of at most 10. *)
Definition sliceable (h : heap V) (p : bytes) (t : art) : Prop :=
  forall q a pre lf kids n, under p t q (Art a pre lf kids) -> h_nodes h !! a = Some n -> n_plen n <= maxPrefixLen.
Lemma mismatch_ok (h : heap V) a n path depth : n_plen n <= maxPrefixLen -> length (n_partial n) = maxPrefixLen -> exists d, prefixMismatch h a n path depth = Ok d.
Proof.
  intros Hle Hpl. unfold prefixMismatch.
  destruct (cmp_loop_total ((maxPrefixLen `min` n_plen n) `min` (length path - depth)) 0 ((maxPrefixLen `min` n_plen n) `min` (length path - depth)) (n_partial n) path depth) as [d ->]; [lia|lia|].
  cbn [obind]. destruct (Nat.ltb d _); [eauto|]. destruct (Nat.ltb_spec maxPrefixLen (n_plen n)); [lia|eauto].
Qed.
Lemma pushAll_total n (kids : list (nat * art)) : enc n (ents kids) -> sortedkind (n_kind n) = true ->
  forall is stack, (forall i, i ∈ is -> i < length kids) -> exists s', pushAll n is stack = Ok s'.
Proof.
  intros He Hk is. induction is as [|i is IH]; intros stack Hi; cbn [pushAll]; [eauto|].
  destruct (lookup_lt_is_Some_2 kids i) as [[b t] Hb]; [apply Hi; left|].
  destruct (sorted_child n _ _ _ He Hk (ents_lookup _ _ _ _ Hb)) as [-> _]. cbn [obind snd]. apply IH. intros j Hj. apply Hi. by right.
Qed.
Lemma revLoop_total (h : heap V) key spare t : 10 `min` length key <= length spare ->
  forall fuel p depth seen exp stack, rep h p t -> narrowL (leaves t) -> sliceable h p t ->
  depth <= length key + 1 -> length key + 1 - depth < fuel ->
  exists r, revLoop fuel h key (key ++ [dollar]) spare (Some (aroot t)) depth seen exp stack = Ok r.
Proof.
  intros Hsp. set (path := key ++ [dollar]). assert (Hlp : length path = length key + 1) by (unfold path; by rewrite app_length).
  induction t as [a pre lf kids IH] using art_ind'. intros fuel p depth seen exp stack Hr Hnl Hsl Hd Hf.
  destruct fuel as [|fuel]; [lia|]. pose proof Hr as Hr0.
  apply rep_inv in Hr as (n & Hn & Hlt & He & Hpl & Hlf & Hk1 & Hk2 & Hk3 & Hst & Hkids).
  pose proof (narrow_kind _ _ _ _ _ _ _ Hr0 Hnl Hn) as Hk.
  assert (Hnch : n_nch n = length kids) by (rewrite (enc_nch_sorted _ _ He Hk); unfold ents; by rewrite map_length).
  assert (Hple : n_plen n <= maxPrefixLen) by (eapply Hsl; [apply under_refl|exact Hn]).
  cbn [revLoop aroot]. unfold nodeOf. rewrite Hn. cbn [obind]. rewrite (leafOf_rep _ _ _ _ _ _ _ Hr0 Hn). cbn [obind].
  assert (Htp : exists part, takePartial n = Ok part) by (unfold takePartial; rewrite (proj2 (Nat.leb_le _ _)) by lia; eauto).
  destruct Htp as [part ->]. cbn [obind].
  match goal with |- exists r, obind ?X _ = _ => assert (HX : exists cmp, X = Ok cmp) end.
  { destruct (Nat.ltb_spec (n_plen n) (length path)) as [Hpp|Hpp].
    - destruct (Nat.ltb_spec (length path + length spare) (depth + n_plen n)) as [Hov|]; [|eauto]. exfalso. unfold maxPrefixLen in Hple. lia.
    - destruct (Nat.ltb_spec (length path) depth); [lia|eauto]. }
  destruct HX as [cmp ->]. cbn [obind].
  match goal with |- exists r, match cmp with Eq => ?G | Lt => _ | Gt => _ end = _ => assert (HG : exists r, G = Ok r) end.
  2: { destruct cmp; [exact HG|eauto|]. destruct seen; [exact HG|eauto]. }
  destruct (_ && _); [eauto|].
  match goal with |- exists r, obind ?X _ = _ => assert (HX : exists m, X = Ok (m, n_plen n)) end.
  { destruct (Nat.ltb_spec 0 (n_plen n)) as [|Hz].
    - destruct (mismatch_ok h a n path depth Hple Hpl) as [m ->]. cbn. eauto.
    - exists 0. f_equal. f_equal. lia. }
  destruct HX as [m ->]. cbn [obind]. destruct (_ && _); [eauto|]. cbn zeta.
  destruct (path !! (depth + n_plen n)) as [c|] eqn:Ec; [|eauto]. apply lookup_lt_Some in Ec.
  destruct (lower_ch_total n kids c He Hk) as [o Eo]. rewrite Eo. cbn [obind].
  destruct (lower_ch _ _ _ _ He Hk Eo) as (k1 & k2 & Ek & _ & _ & ->).
  set (last := match n_nch n with O => None | S i => Some i end).
  assert (Hlast : forall i, last = Some i -> i < length kids) by (unfold last; intros i; rewrite Hnch; destruct (length kids); [done|]; intros [= <-]; lia).
  match goal with |- exists r, obind (match ?I with Some i => _ | None => _ end) _ = _ => assert (HI : forall i, I = Some i -> i < length kids); [|set (idx := I) in *] end.
  { destruct (Nat.eqb _ _); [exact Hlast|]. destruct k2 as [|kt k2]; [exact Hlast|]. intros i [= <-]. rewrite Ek, app_length. cbn. lia. }
  match goal with |- exists r, obind ?X _ = _ => assert (HX : exists s0, X = Ok s0) end.
  { destruct idx as [i|]; [|eauto]. destruct (lookup_lt_is_Some_2 kids i (HI i eq_refl)) as [[b t] Hb].
    destruct (sorted_child _ _ _ _ He Hk (ents_lookup _ _ _ _ Hb)) as [_ ->]. cbn. eauto. }
  destruct HX as [s0 ->]. cbn [obind].
  match goal with |- exists r, match ?I with Some i => _ | None => _ end = _ => assert (HJ : forall i, I = Some i -> i < length kids); [|destruct I as [i|]; [|eauto]] end.
  { destruct s0; [exact Hlast|exact HI]. }
  specialize (HJ i eq_refl). fold (pushAll n).
  destruct (pushAll_total n kids He Hk (seq 0 i) (match match lf with Some (la, k, _) => Some (la, k) | None => None end with Some _ => Some (RN a) :: stack | None => stack end)) as [s' Es].
  { intros j Hj. apply elem_of_seq in Hj. lia. }
  rewrite Es. cbn [obind]. destruct (lookup_lt_is_Some_2 kids i HJ) as [[b t] Hb].
  destruct (sorted_child _ _ _ _ He Hk (ents_lookup _ _ _ _ Hb)) as [Eg _]. rewrite Eg. cbn [obind fst snd]. apply elem_of_list_lookup_2 in Hb.
  apply (IH b t Hb fuel (p ++ pre ++ [b])); [by apply Hkids| | |lia|lia].
  - eapply narrowL_sub; [|exact Hnl]. by apply (kid_sub a pre lf kids b).
  - intros q a' pre' lf' kids' n' Hu. apply (Hsl q a' pre' lf' kids' n'). by eapply under_kid.
Qed.

(** Short runs: no node with children has a compressed path of more than 10 bytes, if no node is thin. *)
Lemma short_paths (h : heap V) (t : art) (m : gmap (list nat) V) : rep h [] t -> contents t m -> short_runs m -> (forall w, ~ thin [] t w) ->
  forall q a pre lf kids, under [] t q (Art a pre lf kids) -> kids <> [] -> length pre <= maxPrefixLen.
Proof.
  intros Hr Hc Hsh Hth q a pre lf kids Hu Hne. destruct (Nat.le_gt_cases (length pre) maxPrefixLen) as [|Hgt]; [done|exfalso].
  pose proof (under_rep _ _ _ _ _ Hu Hr) as Hru.
  destruct (node_parts _ _ _ _ _ _ Hru Hne) as (x & vx & y & vy & b1 & b2 & Hx & Hy & Hb & Px & Py).
  { intros Hw. by apply (Hth (q ++ pre)), (under_thin _ _ _ _ _ Hu). }
  assert (Hxy : x <> y).
  { intros ->. destruct Px as [z1 E1], Py as [z2 E2]. rewrite E1, <- !app_assoc in E2. apply app_inv_head, app_inv_head in E2. cbn in E2. congruence. }
  apply rep_inv in Hru as Hru'. destruct Hru' as (n & Hn & Hlt & He & Hpl & Hlf & Hk1 & Hk2 & Hk3 & Hst & Hkids). destruct (Hk1 Hne) as (_ & _ & Hnod).
  assert (Hall : forall z vz, (z, vz) ∈ leaves (Art a pre lf kids) -> (q ++ pre) `prefix_of` z).
  { intros z vz Hz. apply elem_leaves in Hz as [[la ->]|(b0 & t0 & Hb0 & Hz)].
    - destruct (Hk3 _ _ _ eq_refl) as [_ Hd]. destruct (Hd Hne) as [-> _]. rewrite app_assoc. by apply prefix_app_r.
    - eapply app3_prefix. by eapply rep_leaves_kid. }
  pose proof (Hall _ _ Hx) as Hxp. pose proof (Hall _ _ Hy) as Hyp.
  apply (under_sub _ _ _ _ _ Hu) in Hx. apply Hc in Hx as (x0 & -> & Hmx). apply (under_sub _ _ _ _ _ Hu) in Hy. apply Hc in Hy as (y0 & -> & Hmy).
  assert (Hpw : (q ++ take 11 pre) `prefix_of` (q ++ pre)) by (apply prefix_app; exists (drop 11 pre); by rewrite take_drop).
  apply nodollar_prefix in Hxp; [|done]. apply nodollar_prefix in Hyp; [|done].
  destruct (Hsh q (take 11 pre) x0 y0) as (j & [vj Hmj] & Hqj & Hnj); [rewrite take_length; unfold maxPrefixLen in Hgt; lia|by intros ->|eauto..|by etrans|by etrans|].
  apply Hnj. etrans; [exact Hpw|]. assert (Hjj : (j ++ [dollar], vj) ∈ leaves t) by (apply Hc; eauto).
  apply (under_keys h _ _ _ _ _ _ Hu Hr) in Hjj; [|etrans; [exact Hqj|by apply prefix_app_r]]. apply nodollar_prefix; [done|]. by eapply Hall.
Qed.
(** With the limit on the nodes that hold a single leaf, every stored prefix can be sliced. *)
Lemma short_sliceable (h : heap V) (t : art) (m : gmap (list nat) V) : rep h [] t -> contents t m -> short_runs m -> (forall w, ~ thin [] t w) ->
  (forall a n, h_nodes h !! a = Some n -> n_kind n = K4 -> n_nch n = 0 -> n_leaf n <> None -> n_plen n <= maxPrefixLen) -> sliceable h [] t.
Proof.
  intros Hr Hc Hsh Hth Hl q a pre lf kids n Hu Hn. pose proof (under_rep _ _ _ _ _ Hu Hr) as Hru. pose proof (rep_low _ _ _ _ _ _ _ Hru Hn) as Hlow.
  pose proof (rep_isLeaf _ _ _ _ _ _ _ Hru Hn) as Hil.
  apply rep_inv in Hru as (n' & Hn' & Hlt & He & Hpl & Hlf & Hk1 & Hk2 & Hk3 & Hst & Hkids). assert (n' = n) as -> by congruence.
  destruct (decide (kids = [])) as [Ek|Hne].
  - destruct (Hk2 Ek) as (la & k & v & -> & _). destruct Hlf as (E1 & _). rewrite bool_decide_true in Hil by done.
    assert (Hk4 : n_kind n = K4) by (rewrite Ek in Hlow; destruct (n_kind n); cbn in Hlow; [done|lia..]).
    apply (Hl a n Hn Hk4); [|by rewrite E1]. unfold isLeafN in Hil. apply andb_true_iff in Hil as [Hil _]. by apply Nat.eqb_eq in Hil.
  - destruct (Hk1 Hne) as [-> _]. by eapply short_paths.
Qed.
Lemma rep_reverse_total (h : heap V) (t : art) (m : gmap (list nat) V) k spare : rep h [] t -> contents t m -> narrow m -> sliceable h [] t ->
  10 `min` length k <= length spare -> exists ri, seekReverseLowerBound h (newRevIter (aroot t)) k spare = Ok ri.
Proof.
  intros Hr Hc Hn Hsl Hsp. unfold seekReverseLowerBound. cbn zeta. unfold getTreeKey, newRevIter, newIter. cbn [ri_it ri_exp it_node].
  destruct (revLoop_total h k spare t Hsp (length (k ++ [dollar]) + 2) [] 0 false [] []) as [[st ex] ->]; [done|by eapply contents_narrowL|done|lia|rewrite app_length; cbn; lia|].
  cbn. eauto.
Qed.

(** A common run of 11 bytes: the prefix of the root is too long to be sliced. *)
Lemma rep_reverse_panic (h : heap V) (t : art) (m : gmap (list nat) V) w k spare : rep h [] t -> contents t m -> (forall x, ~ thin [] t x) ->
  length w = 11 -> (forall k', is_Some (m !! k') -> w `prefix_of` k') -> (exists k1 k2, k1 <> k2 /\ is_Some (m !! k1) /\ is_Some (m !! k2)) ->
  seekReverseLowerBound h (newRevIter (aroot t)) k spare = Panic.
Proof.
  intros Hr Hc Hth Hw Hall (k1 & k2 & Hk & [v1 H1] & [v2 H2]). destruct t as [a pre lf kids].
  assert (L1 : (k1 ++ [dollar], v1) ∈ leaves (Art a pre lf kids)) by (apply Hc; eauto).
  assert (L2 : (k2 ++ [dollar], v2) ∈ leaves (Art a pre lf kids)) by (apply Hc; eauto).
  assert (Hne : kids <> []).
  { intros ->. destruct lf as [[[la k0] v0]|]; cbn in L1, L2; [|by apply elem_of_nil in L1]. apply elem_of_list_singleton in L1, L2. injection L1 as E1 _. injection L2 as E2 _.
    rewrite <- E1 in E2. apply app_inj_tail in E2 as [E2 _]. congruence. }
  destruct (node_parts _ _ _ _ _ _ Hr Hne (Hth _)) as (x & vx & y & vy & b1 & b2 & Hx & Hy & Hb & Px & Py). cbn [app] in Px, Py.
  assert (Hlong : maxPrefixLen < length pre).
  { destruct (Nat.lt_ge_cases maxPrefixLen (length pre)) as [|Hle]; [done|exfalso]. unfold maxPrefixLen in Hle.
    assert (Hat : forall z vz b, (z, vz) ∈ leaves (Art a pre lf kids) -> (pre ++ [b]) `prefix_of` z -> w !! length pre = Some b).
    { intros z vz b Hz [u Eu]. apply Hc in Hz as (z0 & -> & Hz). destruct (Hall z0 ltac:(eauto)) as [u' ->].
      assert (E : ((w ++ u') ++ [dollar]) !! length pre = Some b). { rewrite Eu, <- app_assoc. by apply list_lookup_middle. }
      rewrite <- app_assoc in E. rewrite lookup_app_l in E by lia. done. }
    pose proof (Hat _ _ _ Hx Px). pose proof (Hat _ _ _ Hy Py). congruence. }
  apply rep_inv in Hr as Hr'. destruct Hr' as (n & Hn & Hlt & He & Hpl & Hlf & Hk1 & Hk2 & Hk3 & Hst & Hkids). destruct (Hk1 Hne) as (Hpn & _).
  unfold seekReverseLowerBound. cbn zeta. unfold newRevIter, newIter. cbn [ri_it ri_exp it_node aroot].
  rewrite Nat.add_comm. cbn [Nat.add revLoop]. unfold nodeOf. rewrite Hn. cbn [obind].
  rewrite (leafOf_rep _ _ _ _ _ _ _ Hr Hn). cbn [obind]. unfold takePartial. rewrite (proj2 (Nat.leb_gt _ _)) by lia. done.
Qed.
End ReadRev2.
