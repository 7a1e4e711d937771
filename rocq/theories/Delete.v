(** Delete: removing a child, merging with the remaining child. *)
From Verif Require Export Insert3.
From stdpp Require Export list.
Local Open Scope nat_scope.

(** ** Prefix of a merged node *)
Lemma mergePrefix_spec n child pre b : length (n_partial n) = maxPrefixLen -> length (n_partial child) = maxPrefixLen ->
  n_plen n = length pre -> take (maxPrefixLen `min` length pre) (n_partial n) = take maxPrefixLen pre -> getKeyAtIdx n 0 = Ok b ->
  exists part P, mergePrefix n child = Ok (part, set_plen (set_partial child P) (n_plen child + n_plen n + 1)) /\
    length part = maxPrefixLen /\ length P = maxPrefixLen /\
    forall X, n_plen child = length X -> take (maxPrefixLen `min` length X) (n_partial child) = take maxPrefixLen X ->
      take (maxPrefixLen `min` length (pre ++ b :: X)) P = take maxPrefixLen (pre ++ b :: X).
Proof.
  intros Hn Hc Hpl Hpt Hk. unfold mergePrefix. rewrite Hpl.
  assert (Hgc : forall (x : bytes) k, length x = maxPrefixLen -> k <= maxPrefixLen ->
     length (go_copy (n_partial child) 0 (take k x)) = maxPrefixLen /\ take k (go_copy (n_partial child) 0 (take k x)) = take k x).
  { intros x k Hx Hle. rewrite go_copy_0 by (rewrite take_length; lia). rewrite app_length, drop_length, take_length. split; [lia|].
    rewrite take_app_alt; [done|]. rewrite take_length. lia. }
  destruct (Nat.ltb_spec (length pre) maxPrefixLen) as [Hlt|Hge].
  2:{ cbn [obind]. rewrite (proj2 (Nat.ltb_ge _ _)) by done. cbn [obind]. rewrite (proj2 (Nat.ltb_ge _ _)) by lia.
      replace (length pre `min` maxPrefixLen) with maxPrefixLen by lia. destruct (Hgc (n_partial n) maxPrefixLen) as [H1 H2]; [done..|].
      eexists _, _. split; [reflexivity|]. split_and!; [done|done|]. intros X _ _. rewrite app_length.
      replace (maxPrefixLen `min` (length pre + length (b :: X))) with maxPrefixLen by lia. rewrite H2.
      replace (maxPrefixLen `min` length pre) with maxPrefixLen in Hpt by lia. rewrite Hpt. by rewrite take_app_le. }
  rewrite Hn, (proj2 (Nat.ltb_lt _ _)) by done. rewrite Hk. cbn [obind].
  replace (maxPrefixLen `min` length pre) with (length pre) in Hpt by lia. rewrite (firstn_all2 pre) in Hpt by lia.
  assert (HP : <[length pre:=b]> (n_partial n) = (pre ++ [b]) ++ drop (length pre + 1) (n_partial n)).
  { rewrite <- (take_drop (length pre) (n_partial n)) at 1. rewrite Hpt.
    rewrite insert_app_r_alt, Nat.sub_diag by lia. rewrite <- app_assoc. f_equal.
    destruct (drop (length pre) (n_partial n)) as [|r R] eqn:Ed; [apply (f_equal length) in Ed; rewrite drop_length in Ed; cbn in Ed; lia|].
    cbn. f_equal. rewrite Nat.add_1_r. rewrite <- skipn_tl_eq || idtac.
    replace (S (length pre)) with (length pre + 1) by lia. rewrite <- drop_drop, Ed. done. }
  set (part1 := <[length pre:=b]> (n_partial n)) in *.
  assert (Hl1 : length part1 = maxPrefixLen) by (unfold part1; by rewrite insert_length).
  assert (Hlpb : length (pre ++ [b]) = length pre + 1) by (rewrite app_length; done).
  destruct (Nat.ltb_spec (length pre + 1) maxPrefixLen) as [Hlt2|Hge2].
  - set (sub := n_plen child `min` (maxPrefixLen - (length pre + 1))).
    rewrite (proj2 (Nat.ltb_ge _ _)) by (unfold sub; lia). rewrite (proj2 (Nat.ltb_ge _ _)) by lia. cbn [obind].
    set (part2 := go_copy part1 (length pre + 1) (take sub (n_partial child))).
    assert (Hsubl : length (take sub (n_partial child)) = sub) by (rewrite take_length; unfold sub; lia).
    assert (HP2 : part2 = (pre ++ [b] ++ take sub (n_partial child)) ++ drop (length pre + 1 + sub) part1).
    { unfold part2, go_copy. rewrite Hsubl, Hl1. replace (sub `min` (maxPrefixLen - (length pre + 1))) with sub by (unfold sub; lia).
      rewrite HP at 1. rewrite take_app_alt by done. rewrite (firstn_all2 (take sub _)) by lia. by rewrite <- !app_assoc. }
    assert (Hlp3 : length (pre ++ [b] ++ take sub (n_partial child)) = length pre + 1 + sub) by (rewrite !app_length, Hsubl; cbn; lia).
    assert (Hl2 : length part2 = maxPrefixLen) by (rewrite HP2, app_length, Hlp3, drop_length, Hl1; unfold sub; lia).
    rewrite (proj2 (Nat.ltb_ge _ _)) by lia. destruct (Hgc part2 ((length pre + 1 + sub) `min` maxPrefixLen)) as [G1 G2]; [done|lia|].
    eexists _, _. split; [reflexivity|]. split_and!; [done|done|]. intros X HX1 HX2.
    assert (Hm : maxPrefixLen `min` length (pre ++ b :: X) = (length pre + 1 + sub) `min` maxPrefixLen).
    { rewrite app_length. cbn [length]. unfold sub. lia. }
    rewrite Hm, G2. replace ((length pre + 1 + sub) `min` maxPrefixLen) with (length pre + 1 + sub) by (unfold sub; lia).
    rewrite HP2, take_app_alt by done. rewrite take_app_ge by lia. f_equal.
    replace (maxPrefixLen - length pre) with (S (maxPrefixLen - (length pre + 1))) by lia. cbn [take app]. f_equal.
    replace sub with (sub `min` (maxPrefixLen `min` length X)) by (unfold sub; lia). rewrite <- take_take, HX2, take_take.
    replace (sub `min` maxPrefixLen) with ((maxPrefixLen - (length pre + 1)) `min` length X) by (unfold sub; lia).
    rewrite <- take_take. by rewrite firstn_all.
  - cbn [obind]. rewrite (proj2 (Nat.ltb_ge _ _)) by lia. destruct (Hgc part1 ((length pre + 1) `min` maxPrefixLen)) as [G1 G2]; [done|lia|].
    eexists _, _. split; [reflexivity|]. split_and!; [done|done|]. intros X HX1 HX2.
    replace (maxPrefixLen `min` length (pre ++ b :: X)) with ((length pre + 1) `min` maxPrefixLen) by (rewrite app_length; cbn [length]; lia).
    rewrite G2. replace ((length pre + 1) `min` maxPrefixLen) with (length pre + 1) by lia. rewrite HP, take_app_alt by done.
    replace maxPrefixLen with (length pre + 1) by lia. replace (pre ++ b :: X) with ((pre ++ [b]) ++ X) by (by rewrite <- app_assoc).
    by rewrite take_app_alt.
Qed.

Lemma set_ch_same n : set_ch n (n_ch n) = n.
Proof. by destruct n. Qed.

Section Delete.
Context {V : Type} `{GoZero V} {D : KeyDom}.
Notation art := (art V).
Notation TM := (M (st V)).
Notation nd s := (h_nodes (s_h s)).
Notation lv s := (h_leaves (s_h s)).
Notation nx s := (h_next (s_h s)).

(** ** Removing a child *)
Definition rem_post (s : st V) (a : addr) (n : inode) (es' : entries) (lf : option (addr * bytes * V)) (a' : addr) (s' : st V) : Prop :=
  exists n' lf', nd s' !! a' = Some n' /\ upd (eq a) s s' /\ (a' = a \/ nx s <= a') /\ a' < nx s' /\ enc n' es' /\ hdr n n' /\
    (forall x, x ∈ stale n' -> exists b, (b, x) ∈ es') /\ leafrep (s_h s') (n_leaf n') lf' /\ lf_moved (nx s) lf lf' /\ (a ∉ lfa lf -> a' ∉ lfa lf').

(** the node has been changed in place *)
Lemma rem_here (s s' : st V) a n lf es K C N : nd s !! a = Some n -> a < nx s -> length (n_partial n) = maxPrefixLen -> leafrep (s_h s) (n_leaf n) lf ->
  nd s' = <[a := set_arr n K C N]> (nd s) -> lv s' = lv s -> nx s' = nx s -> s_t s' = s_t s -> enc (set_arr n K C N) es ->
  (forall x, x ∈ stale (set_arr n K C N) -> exists b, (b, x) ∈ es) -> rem_post s a n es lf a s'.
Proof.
  intros Hn Hlt Hp Hl Hnd Hlv Hnx Ht He Hst. exists (set_arr n K C N), lf. rewrite Hnd, lookup_insert.
  split; [done|]. split; [|split; [by left|split; [lia|split; [done|split; [done|split; [done|split; [|split; [apply lf_moved_refl|done]]]]]]]].
  - split.
    + exists (t_max (s_t s)). rewrite Ht. by destruct (s_t s).
    + lia.
    + intros x Hx Hxa. split; [|by rewrite Hlv]. rewrite Hnd. by rewrite lookup_insert_ne.
    + intros c P (Hc & m & Hm & Hok). split; [lia|]. destruct (decide (c = a)) as [->|Hne].
      * exists (set_arr n K C N). rewrite Hnd, lookup_insert. split; [done|]. assert (m = n) as -> by congruence. cbn. rewrite Hnx, Hlv. exact Hok.
      * exists m. rewrite Hnd, lookup_insert_ne by done. split; [done|]. by rewrite Hnx, Hlv.
  - cbn. destruct lf as [[[la k] v]|]; [|done]. cbn in Hl |- *. by rewrite Hnx, Hlv.
Qed.

(** the node has been replaced by a smaller one *)
Lemma rem_shrunk (s s1 s' : st V) a n n1 es lf lf' nn n' : rem_post s a n es lf a s1 -> nd s1 !! a = Some n1 -> a <> nn -> nx s1 <= nn -> nn < nx s' -> nd s' !! nn = Some n' ->
  upd none s1 s' -> enc n' es -> hdr n1 n' -> (forall x, x ∈ stale n' -> x ∈ stale n1) -> leafrep (s_h s') (n_leaf n') lf' ->
  (forall lf1, leafrep (s_h s1) (n_leaf n1) lf1 -> lf_moved (nx s1) lf1 lf') -> nn ∉ lfa lf' -> rem_post s a n es lf nn s'.
Proof.
  intros (n1' & lf1 & Hn1 & HU1 & _ & Hlt1 & He1 & Hh1 & Hs1 & Hl1 & Hm1 & _) Hn1' Hnea Hnn Hnnlt Hn' HU He Hh Hst Hl Hm Hni.
  assert (n1' = n1) as -> by congruence. pose proof (upd_next _ _ _ HU1) as Hx.
  exists n', lf'. split; [done|]. split; [eapply upd_n; done|]. split; [right; lia|]. split; [done|]. split; [done|]. split; [by eapply hdr_trans|].
  split; [|split; [done|split; [|done]]].
  - intros x Hx'. apply Hs1. by apply Hst.
  - eapply lf_moved_trans; [exact Hx|exact Hm1|by apply Hm].
Qed.

Lemma leafrep_fun h o (lf1 lf2 : option (addr * bytes * V)) : leafrep h o lf1 -> leafrep h o lf2 -> lf1 = lf2.
Proof.
  destruct lf1 as [[[la k] v]|], lf2 as [[[la' k'] v']|]; cbn; try done.
  - intros (-> & _ & l & Hl & <- & <-) ([= ->] & _ & l' & Hl' & <- & <-). by assert (l' = l) as -> by congruence.
  - by intros (-> & _) [=].
  - by intros -> ([=] & _).
Qed.

Lemma rm_sorted_here (s : st V) a n l1 b c l2 lf idx : add_pre s a n (l1 ++ (b, c) :: l2) lf -> sortedkind (n_kind n) = true ->
  idx = length l1 ->
  exists st K C, removeSorted (set_children n (<[idx := None]> (n_children n))) b = Ok (st, set_arr n K C (length (l1 ++ l2))) /\
   enc (set_arr n K C (length (l1 ++ l2))) (l1 ++ l2) /\
   rem_post s a n (l1 ++ l2) lf a (stN (stN s a (set_children n (<[idx := None]> (n_children n)))) a (set_arr n K C (length (l1 ++ l2)))).
Proof.
  intros (Hn & Hlt & He & Hp & Hl) Hk ->. destruct (removeSorted_spec n l1 b c l2 He Hk) as (st0 & K & C & E & He' & Hs').
  exists st0, K, C. split; [done|]. split; [done|]. eapply rem_here; try done.
  cbn. by rewrite insert_insert.
Qed.

Lemma rm_spec (s : st V) a n l1 b c l2 lf idx : add_pre s a n (l1 ++ (b, c) :: l2) lf -> findChild n b = Ok (Some c, idx) ->
  ~ (n_kind n = K4 /\ length (l1 ++ l2) = 1 /\ lf = None) -> low_of (n_kind n) <= length (l1 ++ (b, c) :: l2) ->
  wp (setChild a idx None ;;; eremoveChild a b) (fun a' s' => rem_post s a n (l1 ++ l2) lf a' s' /\
    (forall n', nd s' !! a' = Some n' -> low_of (n_kind n') <= length (l1 ++ l2))) s.
Proof.
  intros Hpre Hfc Hnm Hlow. assert (Hlen0 : length (l1 ++ (b, c) :: l2) = S (length (l1 ++ l2))) by (rewrite !app_length; cbn; lia). rewrite Hlen0 in Hlow. pose proof Hpre as (Hn & Hlt & He & Hp & Hl).
  destruct (enc_set _ _ _ _ _ He) as (idx' & Hfc' & Hil & Hci & His & Hi48 & Hi256 & _). assert (idx' = idx) as -> by congruence.
  pose proof He as [Hso Hby Hnc Hkl Hcl Hca Hsh].
  assert (Hb : b < 256) by (rewrite Forall_app, Forall_cons in Hby; apply Hby).
  assert (Hset : setChildN n idx None = Ok (set_children n (<[idx := None]> (n_children n)))).
  { unfold setChildN. by rewrite (proj2 (Nat.ltb_lt _ _)). }
  apply wp_bind. eapply wp_setChild; [exact Hn|exact Hset|]. set (n1 := set_children _ _). set (s1 := stN s a n1).
  assert (Hn1 : nd s1 !! a = Some n1) by (cbn; by rewrite lookup_insert).
  unfold eremoveChild. apply wp_bind. eapply wp_loadN; [exact Hn1|].
  change (n_kind n1) with (n_kind n). destruct (n_kind n) eqn:Hk.
  - destruct (rm_sorted_here s a n l1 b c l2 lf idx Hpre) as (st0 & K & C & E & He' & Hpost); [by rewrite Hk|by apply His|].
    unfold eremoveChild4. apply wp_bind. eapply wp_loadN; [exact Hn1|]. apply wp_bind. eapply wp_lift; [exact E|]. cbn beta iota.
    apply wp_bind. eapply wp_loadN; [exact Hn1|]. apply wp_bind, wp_storeN.
    change (n_ch n1) with (n_ch (set_arr n K C (length (l1 ++ l2)))). rewrite set_ch_same. set (n2 := set_arr n K C _) in *.
    apply wp_bind. eapply wp_loadN; [cbn; by rewrite lookup_insert|].
    destruct (Nat.eqb (n_nch n2) 1 && _) eqn:Econd; [|apply wp_ret; split; [done|]; intros n'; cbn; rewrite lookup_insert; intros [= <-]; cbn; rewrite Hk; cbn; lia].
    exfalso. apply andb_true_iff in Econd as [E1 E2]. apply Nat.eqb_eq in E1. apply Hnm. split; [done|]. split; [done|].
    cbn in E2. destruct lf as [[[la k] v]|]; [|done]. destruct Hl as (El & _). by rewrite El in E2.
  - destruct (rm_sorted_here s a n l1 b c l2 lf idx Hpre) as (st0 & K & C & E & He' & Hpost); [by rewrite Hk|by apply His|].
    unfold eremoveChild16. apply wp_bind. eapply wp_loadN; [exact Hn1|]. apply wp_bind. eapply wp_lift; [exact E|]. cbn beta iota.
    apply wp_bind. eapply wp_loadN; [exact Hn1|]. apply wp_bind, wp_storeN.
    change (n_ch n1) with (n_ch (set_arr n K C (length (l1 ++ l2)))). rewrite set_ch_same. set (n2 := set_arr n K C _) in *. set (s2 := stN s1 a n2) in *. change (rem_post s a n (l1 ++ l2) lf a s2) in Hpost.
    assert (Hn2 : nd s2 !! a = Some n2) by (cbn; by rewrite lookup_insert).
    apply wp_bind. eapply wp_loadN; [exact Hn2|].
    destruct (Nat.eqb_spec (n_nch n2) 3) as [E3|E3];
      [|apply wp_ret; split; [done|]; intros n'; rewrite Hn2; intros [= <-]; change (n_nch n2) with (length (l1 ++ l2)) in E3; change (n_kind n2) with (n_kind n); rewrite Hk in *; cbn in *; lia].
    change (n_nch n2) with (length (l1 ++ l2)) in E3.
    apply wp_bind, wp_allocNode. set (d := fresh_node K4 _). set (s3 := alN s2 d).
    destruct (copyHeader_spec d n2) as (P & EP & HP1 & HP2); [done|done|].
    apply wp_bind. eapply wp_updN; [cbn; by rewrite lookup_insert|exact EP|].
    apply wp_bind. eapply wp_updN; [cbn; by rewrite lookup_insert|reflexivity|].
    apply wp_bind. eapply wp_updN; [cbn; by rewrite lookup_insert|reflexivity|].
    match goal with |- wp _ _ (stN ?x _ ?y) => set (s4' := x); set (n4 := y); set (s4 := stN s4' (nx s2) n4) end.
    destruct (shrink16_spec n2 (l1 ++ l2) d) as [He4 Hs4]; try done.
    assert (HU4 : upd none s2 s4).
    { eapply upd_stN; [eapply upd_stN; [eapply upd_stN; [apply upd_alN, upd_refl| |by left]| |by left]| |by left]; cbn; by rewrite lookup_insert. }
    destruct Hpost as (n2' & lf2 & Hn2' & HU2 & _ & _ & _ & Hh2 & Hs2 & Hl2 & Hm2 & Hni2).
    assert (n2' = n2) as -> by congruence.
    assert (lf2 = lf) as ->.
    { change (n_leaf n2) with (n_leaf n) in Hl2. destruct lf as [[[la k] v]|], lf2 as [[[la2 k2] v2]|]; cbn in Hm2; try done.
      destruct Hm2 as (-> & -> & _). destruct Hl as (El & _), Hl2 as (El2 & _). congruence. }
    assert (Hn4 : nd s4 !! nx s2 = Some n4) by (cbn; by rewrite lookup_insert).
    apply wp_bind. eapply wp_mono; [eapply (emoveLeaf_spec s4 (nx s2) n4 _ lf); [done|done|]|].
    { eapply upd_leafrep; [exact HU4|exact Hl2|apply not_none]. }
    intros _ s5 (o' & lf' & Hnd5 & Hl5 & Hlm5 & Hnx5 & HU5). specialize (HU5 s2 none ltac:(lia) HU4).
    apply wp_bind. eapply wp_setNodeLeaf; [rewrite Hnd5; by rewrite lookup_insert|]. apply wp_ret.
    match goal with |- rem_post _ _ _ _ _ _ (stN _ _ ?x) /\ _ => set (n6 := x) end.
    split; [|intros n' Hn'; cbn in Hn'; rewrite lookup_insert in Hn'; injection Hn' as <-; cbn; lia].
    assert (HU6 : upd none s2 (stN s5 (nx s2) n6)).
    { eapply upd_stN; [exact HU5|rewrite Hnd5; by rewrite lookup_insert|]. by left. }
    eapply (rem_shrunk s s2 _ a n n2 _ lf lf (nx s2) n6).
    + exists n2, lf. split; [done|]. split; [done|]. split; [by left|]. split; [done|]. split; [done|]. split; [done|]. split; [done|]. split; [done|]. split; [done|]. done.
    + done.
    + cbn. lia.
    + lia.
    + cbn in Hnx5 |- *. lia.
    + cbn. by rewrite lookup_insert.
    + done.
    + eapply enc_same; [|exact He4]. done.
    + split; [done|]. split; [done|]. cbn. exact HP2.
    + intros x Hx. apply Hs4. rewrite <- (stale_same _ n6); [exact Hx|done].
    + change (n_leaf n6) with (n_leaf n2). eapply upd_leafrep; [exact HU6|exact Hl2|apply not_none].
    + intros lf1 Hlf1. rewrite (leafrep_fun _ _ _ _ Hlf1 Hl2). apply lf_moved_refl.
    + destruct lf as [[[la k] v]|]; cbn; [|apply not_elem_of_nil]. rewrite elem_of_list_singleton. destruct Hl as (_ & Hla & _). cbn. lia.
  - specialize (Hi48 eq_refl). unfold eremoveChild48. apply wp_bind. eapply wp_loadN; [exact Hn1|].
    assert (Hi : idx < 48) by (rewrite Hcl in Hil; exact Hil).
    assert (Hdec : u8_decr (S idx) = idx).
    { unfold u8_decr. replace (S idx + 255) with (idx + 1 * 256) by lia. unfold u8. rewrite Nat.mod_add by lia. apply Nat.mod_small. lia. }
    apply wp_bind. eapply wp_lift.
    { unfold getKeyAtIdx. change (n_kind n1) with (n_kind n). rewrite Hk. change (n_keys n1) with (n_keys n). by rewrite Hi48. }
    apply wp_bind. eapply wp_updN; [exact Hn1| |].
    { unfold setKeyAtIdx. change (n_kind n1) with (n_kind n). rewrite Hk. change (n_keys n1) with (n_keys n). rewrite (proj2 (Nat.ltb_lt _ _)); [reflexivity|].
      by apply lookup_lt_Some in Hi48. }
    rewrite Hdec. apply wp_bind. eapply wp_lift.
    { unfold getChild. change (n_kind n1) with (n_kind n). rewrite Hk. change (n_children n1) with (<[idx:=None]> (n_children n)).
      by rewrite list_lookup_insert by done. }
    apply wp_bind. eapply wp_updN; [cbn; by rewrite lookup_insert| |].
    { unfold setChildN. cbn [n_children set_keys set_children n1]. rewrite insert_length, (proj2 (Nat.ltb_lt _ _)) by done. reflexivity. }
    apply wp_bind. eapply wp_updN; [cbn; by rewrite lookup_insert|reflexivity|].
    match goal with |- wp _ _ (stN ?x _ ?y) => set (s2' := x); set (n2 := y); set (s2 := stN s2' a n2) end.
    assert (En2 : n2 = set_arr n (<[b := 0]> (n_keys n)) (<[idx := None]> (n_children n)) (u8_decr (n_nch n))).
    { unfold n2. cbn. by rewrite list_insert_insert. }
    assert (He2 : enc n2 (l1 ++ l2)) by (rewrite En2; by eapply enc48_remove).
    assert (Hn2 : nd s2 !! a = Some n2) by (cbn; by rewrite lookup_insert).
    assert (Hpost : rem_post s a n (l1 ++ l2) lf a s2).
    { eapply (rem_here s s2 a n lf (l1 ++ l2) (<[b := 0]> (n_keys n)) (<[idx := None]> (n_children n)) (u8_decr (n_nch n))); try done.
      - rewrite <- En2. cbn. by rewrite !insert_insert.
      - by rewrite <- En2.
      - unfold stale. cbn. rewrite Hk. cbn. intros x Hx. by apply elem_of_nil in Hx. }
    apply wp_bind. eapply wp_loadN; [exact Hn2|].
    assert (Hnch2 : n_nch n2 = length (l1 ++ l2)).
    { rewrite (enc_nch _ _ He2), u8_small; [done|]. rewrite Hlen0, ?Hk in Hca. cbn in Hca. lia. }
    destruct (Nat.eqb_spec (n_nch n2) 12) as [E3|E3];
      [|apply wp_ret; split; [done|]; intros n'; rewrite Hn2; intros [= <-]; change (n_kind n2) with (n_kind n); rewrite Hk in *; cbn in Hlow |- *; lia].
    assert (Hlen : length (l1 ++ l2) = 12).
    { rewrite (enc_nch _ _ He2), u8_small in E3; [done|]. pose proof (enc_cap _ _ He2) as Hcc. rewrite En2 in Hcc. cbn [n_kind set_arr set_nch set_children set_keys] in Hcc. rewrite Hk in Hcc. cbn in Hcc. lia. }
    apply wp_bind, wp_allocNode. set (d := fresh_node K16 _). set (s3 := alN s2 d).
    destruct (copyHeader_spec d n2) as (P & EP & HP1 & HP2); [done|done|].
    apply wp_bind. eapply wp_updN; [cbn; by rewrite lookup_insert|exact EP|].
    match goal with |- wp _ _ (stN ?x _ ?y) => set (n4 := y); set (s4 := stN s3 (nx s2) n4) end.
    assert (HU4 : upd none s2 s4).
    { eapply upd_stN; [apply upd_alN, upd_refl| |by left]; cbn; by rewrite lookup_insert. }
    destruct Hpost as (n2' & lf2 & Hn2' & HU2 & _ & _ & _ & Hh2 & Hs2 & Hl2 & Hm2 & Hni2).
    assert (n2' = n2) as -> by congruence.
    assert (Hn4 : nd s4 !! nx s2 = Some n4) by (cbn; by rewrite lookup_insert).
    apply wp_bind. eapply wp_mono; [eapply (emoveLeaf_spec s4 (nx s2) n4 _ lf2); [done|done|]|].
    { eapply upd_leafrep; [exact HU4|exact Hl2|apply not_none]. }
    intros _ s5 (o' & lf' & Hnd5 & Hl5 & Hlm5 & Hnx5 & HU5). specialize (HU5 s2 none ltac:(lia) HU4).
    destruct (shrink48_spec n2 (l1 ++ l2) (set_leaf n4 o')) as (K & C & EK & HeK & HsK); try done.
    apply wp_bind. eapply wp_updN; [rewrite Hnd5; by rewrite lookup_insert|exact EK|]. apply wp_ret.
    match goal with |- rem_post _ _ _ _ _ _ (stN _ _ ?x) /\ _ => set (n6 := x) end.
    split; [|intros n' Hn'; cbn in Hn'; rewrite lookup_insert in Hn'; injection Hn' as <-; cbn; lia].
    assert (HU6 : upd none s2 (stN s5 (nx s2) n6)).
    { eapply upd_stN; [exact HU5|rewrite Hnd5; by rewrite lookup_insert|]. by left. }
    assert (Hnx4 : nx s4 = S (nx s2)) by done.
    assert (Hnx62 : nx (stN s5 (nx s2) n6) = nx s5) by done.
    eapply (rem_shrunk s s2 _ a n n2 _ lf lf' (nx s2) n6).
    + exists n2, lf2. split; [done|]. split; [done|]. split; [by left|]. split; [done|]. split; [done|]. split; [done|]. split; [done|]. split; [done|]. split; [done|]. done.
    + done.
    + cbn. lia.
    + lia.
    + lia.
    + cbn. by rewrite lookup_insert.
    + done.
    + eapply enc_same; [|exact HeK]. done.
    + split; [done|]. split; [done|]. cbn. exact HP2.
    + intros x Hx. exfalso. change (stale n6) with (stale (set_arr (set_leaf n4 o') K C (n_nch n2))) in Hx. rewrite HsK in Hx. by apply elem_of_nil in Hx.
    + change (n_leaf n6) with o'. destruct lf' as [[[la' k'] v']|]; [|done]. exact Hl5.
    + intros lf1 Hlf1. rewrite (leafrep_fun _ _ _ _ Hlf1 Hl2). eapply (lf_moved_trans (nx s2) (nx s4)); [lia|apply lf_moved_refl|exact Hlm5].
    + eapply (moved_ne s2 lf2 lf' (nx s2)); [eapply leafrep_self; exact Hl2|done|exact Hlm5].
  - specialize (Hi256 eq_refl) as ->. unfold eremoveChild256.
    apply wp_bind. eapply wp_updN; [exact Hn1| |].
    { unfold setChildN. cbn [n_children set_children n1]. rewrite insert_length, (proj2 (Nat.ltb_lt _ _)) by done. reflexivity. }
    apply wp_bind. eapply wp_updN; [cbn; by rewrite lookup_insert|reflexivity|].
    match goal with |- wp _ _ (stN ?x _ ?y) => set (s2' := x); set (n2 := y); set (s2 := stN s2' a n2) end.
    assert (En2 : n2 = set_arr n (n_keys n) (<[b := None]> (n_children n)) (u8_decr (n_nch n))).
    { unfold n2. cbn. by rewrite list_insert_insert. }
    assert (He2 : enc n2 (l1 ++ l2)) by (rewrite En2; by eapply enc256_remove).
    assert (Hn2 : nd s2 !! a = Some n2) by (cbn; by rewrite lookup_insert).
    assert (Hpost : rem_post s a n (l1 ++ l2) lf a s2).
    { eapply (rem_here s s2 a n lf (l1 ++ l2) (n_keys n) (<[b := None]> (n_children n)) (u8_decr (n_nch n))); try done.
      - rewrite <- En2. cbn. by rewrite !insert_insert.
      - by rewrite <- En2.
      - unfold stale. cbn. rewrite Hk. cbn. intros x Hx. by apply elem_of_nil in Hx. }
    apply wp_bind. eapply wp_loadN; [exact Hn2|].
    assert (Hnch2 : n_nch n2 = length (l1 ++ l2)).
    { rewrite (enc_nch _ _ He2), u8_small; [done|]. rewrite Hlen0, ?Hk in Hca. cbn in Hca. lia. }
    destruct (Nat.eqb_spec (n_nch n2) 37) as [E3|E3];
      [|apply wp_ret; split; [done|]; intros n'; rewrite Hn2; intros [= <-]; change (n_kind n2) with (n_kind n); rewrite Hk in *; cbn in Hlow |- *; lia].
    assert (Hlen : length (l1 ++ l2) = 37).
    { rewrite (enc_nch _ _ He2), u8_small in E3; [done|]. rewrite app_length in Hca |- *. cbn in Hca. lia. }
    apply wp_bind, wp_allocNode. set (d := fresh_node K48 _). set (s3 := alN s2 d).
    destruct (copyHeader_spec d n2) as (P & EP & HP1 & HP2); [done|done|].
    apply wp_bind. eapply wp_updN; [cbn; by rewrite lookup_insert|exact EP|].
    match goal with |- wp _ _ (stN ?x _ ?y) => set (n4 := y); set (s4 := stN s3 (nx s2) n4) end.
    assert (HU4 : upd none s2 s4).
    { eapply upd_stN; [apply upd_alN, upd_refl| |by left]; cbn; by rewrite lookup_insert. }
    destruct Hpost as (n2' & lf2 & Hn2' & HU2 & _ & _ & _ & Hh2 & Hs2 & Hl2 & Hm2 & Hni2).
    assert (n2' = n2) as -> by congruence.
    assert (Hn4 : nd s4 !! nx s2 = Some n4) by (cbn; by rewrite lookup_insert).
    apply wp_bind. eapply wp_mono; [eapply (emoveLeaf_spec s4 (nx s2) n4 _ lf2); [done|done|]|].
    { eapply upd_leafrep; [exact HU4|exact Hl2|apply not_none]. }
    intros _ s5 (o' & lf' & Hnd5 & Hl5 & Hlm5 & Hnx5 & HU5). specialize (HU5 s2 none ltac:(lia) HU4).
    destruct (shrink256_spec n2 (l1 ++ l2) (set_leaf n4 o')) as (K & C & EK & HeK); try done.
    apply wp_bind. eapply wp_updN; [rewrite Hnd5; by rewrite lookup_insert|exact EK|]. apply wp_ret.
    match goal with |- rem_post _ _ _ _ _ _ (stN _ _ ?x) /\ _ => set (n6 := x) end.
    split; [|intros n' Hn'; cbn in Hn'; rewrite lookup_insert in Hn'; injection Hn' as <-; cbn; lia].
    assert (HU6 : upd none s2 (stN s5 (nx s2) n6)).
    { eapply upd_stN; [exact HU5|rewrite Hnd5; by rewrite lookup_insert|]. by left. }
    assert (Hnx4 : nx s4 = S (nx s2)) by done.
    assert (Hnx62 : nx (stN s5 (nx s2) n6) = nx s5) by done.
    eapply (rem_shrunk s s2 _ a n n2 _ lf lf' (nx s2) n6).
    + exists n2, lf2. split; [done|]. split; [done|]. split; [by left|]. split; [done|]. split; [done|]. split; [done|]. split; [done|]. split; [done|]. split; [done|]. done.
    + done.
    + cbn. lia.
    + lia.
    + lia.
    + cbn. by rewrite lookup_insert.
    + done.
    + eapply enc_same; [|exact HeK]. done.
    + split; [done|]. split; [done|]. cbn. exact HP2.
    + intros x Hx. unfold stale in Hx. cbn in Hx. by apply elem_of_nil in Hx.
    + change (n_leaf n6) with o'. destruct lf' as [[[la' k'] v']|]; [|done]. exact Hl5.
    + intros lf1 Hlf1. rewrite (leafrep_fun _ _ _ _ Hlf1 Hl2). eapply (lf_moved_trans (nx s2) (nx s4)); [lia|apply lf_moved_refl|exact Hlm5].
    + eapply (moved_ne s2 lf2 lf' (nx s2)); [eapply leafrep_self; exact Hl2|done|exact Hlm5].
Qed.
End Delete.
