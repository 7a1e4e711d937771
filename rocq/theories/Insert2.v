(** Insert: the cases. *)
From Verif Require Export Insert.
From stdpp Require Export list.
Local Open Scope nat_scope.

Ltac nodup_lia := repeat (apply NoDup_cons; split; [rewrite ?elem_of_cons, ?elem_of_nil; lia|]); apply NoDup_nil_2.

Section Insert.
Context {V : Type} `{GoZero V} {D : KeyDom}.
Notation art := (art V).
Notation TM := (M (st V)).
Notation nd s := (h_nodes (s_h s)).
Notation lv s := (h_leaves (s_h s)).
Notation nx s := (h_next (s_h s)).

Lemma upd_any X (s s' : st V) : upd none s s' -> upd X s s'.
Proof. intros HU. eapply upd_weaken; [exact HU|]. by intros x _ []. Qed.

Lemma upd_nn (s0 s1 s2 : st V) : upd none s0 s1 -> upd none s1 s2 -> upd none s0 s2.
Proof. intros H1 H2. eapply upd_trans; [exact H1|exact H2|by intros ? ? []]. Qed.
Lemma upd_eq X (s0 s1 s2 : st V) a : upd X s0 s1 -> upd (eq a) s1 s2 -> (X a \/ nx s0 <= a) -> upd X s0 s2.
Proof. intros H1 H2 Ha. eapply upd_trans; [exact H1|exact H2|]. intros x Hx <-. destruct Ha; [done|lia]. Qed.
Lemma upd_n X (s0 s1 s2 : st V) : upd X s0 s1 -> upd none s1 s2 -> upd X s0 s2.
Proof. intros H1 H2. eapply upd_trans; [exact H1|exact H2|]. by intros x _ []. Qed.
Lemma not_none (l : list addr) : forall x, x ∈ l -> ~ none x.
Proof. by intros x _ []. Qed.

Lemma rep_inner (h : heap V) p a q lf kids n : h_nodes h !! a = Some n -> a < h_next h -> enc n (ents kids) -> kids <> [] ->
  n_plen n = length q -> length (n_partial n) = maxPrefixLen -> take (maxPrefixLen `min` length q) (n_partial n) = take maxPrefixLen q ->
  (forall x, x ∉ stale n) -> leafrep h (n_leaf n) lf -> opn (p ++ q) ->
  (forall la k v, lf = Some (la, k, v) -> stored k /\ k = p ++ q ++ [dollar] /\ dollar ∉ kids.*1) ->
  (forall b t, (b, t) ∈ kids -> rep h (p ++ q ++ [b]) t) -> low_of (n_kind n) <= length kids -> rep h p (Art a q lf kids).
Proof.
  intros Hn Hlt He Hne Hpl Hpt Hst Hlf Hnd Hd Hk Hkids Hlow. apply (rep_node _ _ _ _ _ _ n); try done.
  - intros la k v El. destruct (Hk la k v El) as (H1 & H2 & H3). done.
  - intros c Hc. by apply Hlf in Hc.
Qed.

Lemma has_prefix_false s p : ~ p `prefix_of` s -> has_prefix s p = false.
Proof. intros Hn. destruct (has_prefix s p) eqn:E; [|done]. by apply has_prefix_true in E. Qed.

Lemma not_prefix_longer {A} (q : list A) x y : ~ (q ++ x :: y) `prefix_of` q.
Proof. intros Hp. apply prefix_length in Hp. rewrite app_length in Hp. cbn in Hp. lia. Qed.
Lemma not_prefix_other {A} (q : list A) a b x y : a <> b -> ~ (q ++ a :: x) `prefix_of` (q ++ b :: y).
Proof. intros Hab Hp. apply prefix_app_inv in Hp. by apply prefix_cons_inv_1 in Hp. Qed.

Definition inner_ok (p q : bytes) (n : inode) : Prop :=
  n_plen n = length q /\ length (n_partial n) = maxPrefixLen /\ take (maxPrefixLen `min` length q) (n_partial n) = take maxPrefixLen q /\
  (forall x, x ∉ stale n) /\ opn (p ++ q) /\ low_of (n_kind n) = 0.

Lemma low_small k m : m < 4 -> low_of k <= m -> low_of k = 0.
Proof. destruct k; cbn; lia. Qed.

Lemma hdr_inner p q n n' : hdr n n' -> (forall x, x ∈ stale n' -> x ∈ stale n) -> inner_ok p q n ->
  n_kind n' = n_kind n \/ low_of (n_kind n') <= 1 -> inner_ok p q n'.
Proof.
  intros (E1 & E2 & E3) Hs (F1 & F2 & F3 & F4 & F5 & F6) Hlw. rewrite F1 in E3. split_and!; try congruence.
  - intros x Hx. by apply (F4 x), Hs.
  - destruct Hlw as [->|Hlw]; [done|]. by apply (low_small _ 1); [lia|].
Qed.

Lemma inner_of_add (s4 s5 : st V) nn n4 kids lf a5 p q : add_post s4 nn n4 (ents kids) lf a5 s5 -> inner_ok p q n4 -> kids <> [] ->
  (forall la k v, lf = Some (la, k, v) -> stored k /\ k = p ++ q ++ [dollar] /\ dollar ∉ kids.*1) ->
  (forall b t, (b, t) ∈ kids -> rep (s_h s4) (p ++ q ++ [b]) t /\ nn ∉ fp t) ->
  exists lf', rep (s_h s5) p (Art a5 q lf' kids) /\ lf_moved (nx s4) lf lf' /\ (a5 = nn \/ nx s4 <= a5) /\ upd (eq nn) s4 s5 /\ (nn ∉ lfa lf -> a5 ∉ lfa lf').
Proof.
  intros (n' & lf' & Hn' & HU & Ha5 & Hlt5 & He & Hh & Hs & Hlf & Hmv & Hni & Hlw) Hok Hne Hk Hkids.
  assert (Hok' : n_plen n' = length q /\ length (n_partial n') = maxPrefixLen /\ take (maxPrefixLen `min` length q) (n_partial n') = take maxPrefixLen q /\
    (forall x, x ∉ stale n') /\ opn (p ++ q) /\ low_of (n_kind n') <= length kids).
  { destruct Hok as (F1 & F2 & F3 & F4 & F5 & F6). destruct Hh as (E1 & E2 & E3). rewrite F1 in E3. split_and!; try congruence.
    - intros x Hx. by apply (F4 x), Hs.
    - destruct Hlw as [->|Hlw]; [lia|]. unfold ents in Hlw. by rewrite fmap_length in Hlw. }
  destruct Hok' as (F1 & F2 & F3 & F4 & F5 & F6).
  exists lf'. split_and!; try done. eapply rep_inner; try done.
  - intros la k v ->. destruct lf as [[[la0 k0] v0]|]; [|done]. destruct Hmv as (-> & -> & _). eauto.
  - intros b t Hbt. destruct (Hkids b t Hbt) as [Hr Hnn]. eapply upd_rep; [exact HU|exact Hr|]. by intros x Hx <-.
Qed.

Lemma two_leaves (key nk : bytes) (v ov : V) k' v' : nk <> key ->
  (k', v') ∈ [(key, v); (nk, ov)] <-> (k' = key /\ v' = v) \/ (k' <> key /\ (k', v') ∈ [(nk, ov)]).
Proof.
  intros Hne. rewrite !elem_of_cons, !elem_of_nil. split.
  - intros [E|[E|[]]]; injection E as -> ->; auto.
  - intros [[-> ->]|[_ [E|[]]]]; auto.
Qed.
Lemma two_leaves' (key nk : bytes) (v ov : V) k' v' : nk <> key ->
  (k', v') ∈ [(nk, ov); (key, v)] <-> (k' = key /\ v' = v) \/ (k' <> key /\ (k', v') ∈ [(nk, ov)]).
Proof. intros Hne. rewrite <- two_leaves by done. rewrite !elem_of_cons, !elem_of_nil. tauto. Qed.

(** txn.go:126-162: the node is a leaf holder with another key. *)
Lemma ins_holder (s : st V) p a pre la nk ov key v : rep (s_h s) p (Art a pre (Some (la, nk, ov)) []) ->
  NoDup (fp (Art a pre (Some (la, nk, ov)) [])) -> stored key -> p `prefix_of` key -> nk <> key ->
  wp (let! newLeaf2 := makeLeaf key v in
      let! nl2 := loadN newLeaf2 in
      let! node := ewriteNode a in
      let! longestPrefix := lift (longestCommonPrefix key nk (length p)) in
      let! newNode := allocNode K4 in
      updN newNode (fun n => Ok (set_plen n longestPrefix)) ;;;
      (if Nat.ltb (length key) (length p + (maxPrefixLen `min` longestPrefix)) then panic else
       copyPartial newNode (slice key (length p) (length p + (maxPrefixLen `min` longestPrefix)))) ;;;
      let! newNode :=
        (if has_prefix (getKey nk) (getKey key) then
           setNodeLeaf newNode (n_leaf nl2) ;;;
           let! c := byteAt nk (length p + longestPrefix) in
           eaddChild newNode c node
         else if has_prefix (getKey key) (getKey nk) then
           setNodeLeaf newNode (Some la) ;;;
           let! c := byteAt key (length p + longestPrefix) in
           eaddChild newNode c newLeaf2
         else
           let! newNode :=
             (if Nat.ltb (length p + longestPrefix) (length nk) then
                let! c := byteAt nk (length p + longestPrefix) in
                eaddChild newNode c node
              else ret newNode) in
           if Nat.ltb (length p + longestPrefix) (length key) then
             let! c := byteAt key (length p + longestPrefix) in
             eaddChild newNode c newLeaf2
           else ret newNode) in
      ret (newNode, go_zero, true, false))
     (ins_post s p (Art a pre (Some (la, nk, ov)) []) key v) s.
Proof.
  intros Hr Hnd Hsk Hpk Hne. pose proof Hr as Hr0.
  apply rep_inv in Hr as (n & Hn & Hlt & He & Hpl & Hlf & Hk1 & Hk2 & Hk3 & Hst & Hkids).
  destruct (Hk2 eq_refl) as (? & ? & ? & [= <- <- <-] & Hpn). destruct (Hk3 _ _ _ eq_refl) as [Hsn _].
  rewrite !fp_eq in Hnd. cbn in Hnd. apply NoDup_cons in Hnd as [Hala _]. rewrite elem_of_list_singleton in Hala.
  assert (Hlalt : la < nx s) by apply Hlf.
  destruct (stored_diverge p key nk) as (q & x & y & kx & ky & Ek & En & Hxy & Hlcp); [done..| |done|done|]; [congruence|].
  assert (Hkx : stored ((p ++ q) ++ x :: kx)) by (by rewrite <- app_assoc, <- Ek).
  assert (Hky : stored ((p ++ q) ++ y :: ky)) by (by rewrite <- app_assoc, <- En).
  destruct (stored_dec _ _ _ Hkx) as (Hndq & Hxb & Hxc). destruct (stored_dec _ _ _ Hky) as (_ & Hyb & Hyc).
  assert (Hp1 : (p ++ q ++ [x]) `prefix_of` key) by (rewrite Ek; exists kx; by rewrite <- !app_assoc).
  assert (Hp2 : (p ++ q ++ [y]) `prefix_of` nk) by (rewrite En; exists ky; by rewrite <- !app_assoc).
  eapply wp_use; [apply (makeLeaf_spec s key v (p ++ q ++ [x]) Hsk Hp1)|]. cbn beta.
  intros nl s1 (-> & Hnx1 & HU1 & HT2 & n2 & Hn2 & Hn2l).
  assert (HL2 : leafrep (s_h s1) (n_leaf n2) (Some (nx s, key, v))).
  { apply rep_inv in HT2 as (n20 & Hn20 & _ & _ & _ & HL2 & _). by assert (n20 = n2) as <- by congruence. }
  apply wp_bind. eapply wp_loadN; [exact Hn2|].
  eapply wp_use; [apply (ewriteNode_spec s1 a n); [eapply upd_node; [exact HU1|done|done|by intros []]|done|lia]|]. cbn beta.
  intros a' s2 (n' & Hn' & Hsame & Ha'lt & Ha' & HU2 & Hlv2).
  apply wp_bind. eapply wp_lift.
  { apply longestCommonPrefix_spec; [by apply prefix_length in Hpk|by apply prefix_length in Hpn]. }
  rewrite Hlcp.
  assert (Hlk : length key = length p + length q + S (length kx)) by (rewrite Ek, !app_length; cbn; lia).
  assert (Hln : length nk = length p + length q + S (length ky)) by (rewrite En, !app_length; cbn; lia).
  rewrite (proj2 (Nat.ltb_ge _ _)) by lia.
  assert (Hslice : slice key (length p) (length p + maxPrefixLen `min` length q) = take maxPrefixLen q).
  { unfold slice. rewrite Ek, drop_app. replace (length p + maxPrefixLen `min` length q - length p) with (maxPrefixLen `min` length q) by lia.
    rewrite take_app_le by lia. rewrite <- take_take. by rewrite firstn_all. }
  rewrite Hslice. apply newInner_spec; [rewrite take_length; lia|].
  intros s3 n3 Hnx3 Hn3 HU3 Hlv3 He3 Hl3 Hs3 Hkd3 Hpl3 Hpp3 Hpt3.
  (* the old leaf holder, below the new node *)
  assert (HT1 : rep (s_h s2) (p ++ q ++ [y]) (Art a' pre (Some (la, nk, ov)) [])).
  { eapply rep_holder; [|exact Hp2]. eapply (rep_copy s s2 none); try done.
    - eapply upd_trans; [exact HU1|exact HU2|by intros ? ? []].
    - apply not_none. }
  pose proof (upd_next _ _ _ HU2) as Hnx2.
  assert (HU02 : upd none s s2) by (eapply upd_trans; [exact HU1|exact HU2|by intros ? ? []]).
  assert (Hlk1 : nk !! (length p + length q) = Some y).
  { rewrite En, lookup_app_r by lia. rewrite lookup_app_r by lia. by replace (length p + length q - length p - length q) with 0 by lia. }
  assert (Hlk2 : key !! (length p + length q) = Some x).
  { rewrite Ek, lookup_app_r by lia. rewrite lookup_app_r by lia. by replace (length p + length q - length p - length q) with 0 by lia. }
  assert (Hrepabs : forall v0, (key, v0) ∉ leaves (Art a pre (Some (la, nk, ov)) [])).
  { intros v0. cbn. rewrite elem_of_list_singleton. congruence. }
  assert (Hlv' : forall k' v', (k', v') ∈ [(key, v); (nk, ov)] <-> (k' = key /\ v' = v) \/ (k' <> key /\ (k', v') ∈ leaves (Art a pre (Some (la, nk, ov)) []))).
  { intros k' v'. by apply two_leaves. }
  assert (Hok3 : inner_ok p q n3).
  { split_and!; try done; [rewrite Hs3; intros z; apply not_elem_of_nil|by rewrite Hkd3]. }
  apply wp_bind. destruct Hxc as [(-> & -> & Hgk)|(Hxd & x0 & -> & Hgk)].
  - (* the new key is a prefix of the old one *)
    destruct Hyc as [(-> & _)|(Hyd & y0 & -> & Hgn)]; [done|].
    rewrite <- app_assoc in Hgk, Hgn. rewrite <- Ek in Hgk. rewrite <- En in Hgn.
    rewrite Hgk, Hgn. rewrite (proj2 (has_prefix_true _ _)) by (by exists (y :: y0)).
    apply wp_bind. eapply wp_setNodeLeaf; [exact Hn3|]. set (n4 := set_leaf n3 _). set (s4 := stN s3 _ n4).
    apply wp_bind. eapply wp_byteAt; [exact Hlk1|].
    assert (HU4 : upd none s2 s4) by (eapply upd_stN; [exact HU3|exact Hn3|by left]).
    assert (Hnx4 : nx s4 = nx s3) by done.
    eapply wp_mono; [eapply (eaddChild_spec s4 (nx s2) n4 [] y a' [] (Some (nx s, key, v)))|]; cbn [app].
    + split_and!; [cbn; by rewrite lookup_insert|cbn; lia|eapply enc_same; [|exact He3]; done|done|].
      eapply upd_leafrep; [exact HU4|eapply upd_leafrep; [exact HU2|exact HL2|by intros ? ? []]|by intros ? ? []].
    + constructor.
    + constructor.
    + done.
    + intros a5 s5 Hpost. apply wp_ret.
      edestruct (inner_of_add s4 s5 (nx s2) n4 [(y, Art a' pre (Some (la, nk, ov)) [])]) as (lf5 & Hr5 & Hmv5 & Ha5 & HU5 & Hni5); [exact Hpost|..].
      * done.
      * done.
      * intros la0 k0 v0 [= <- <- <-]. rewrite Ek. split; [by rewrite <- Ek|]. split; [done|]. cbn. rewrite elem_of_list_singleton. done.
      * intros b t Hbt. apply elem_of_list_singleton in Hbt as [= -> ->]. split; [eapply upd_rep; [exact HU4|exact HT1|by intros ? ? []]|].
        rewrite fp_eq. cbn. rewrite !elem_of_cons, elem_of_nil. lia.
      * destruct lf5 as [[[la5 k5] v5]|]; [|done]. destruct Hmv5 as (-> & -> & Hla5). cbn in Hni5, Hla5.
        eexists. split; [|split; [|split; [exact Hr5|]]]; [done..|]. 
        rewrite !fp_eq. cbn. rewrite !elem_of_list_singleton in Hni5.
        assert (a5 <> la5) by (apply Hni5; lia).
        split_and!.
        -- nodup_lia.
        -- intros z. rewrite !elem_of_cons, !elem_of_nil. cbn in *. lia.
        -- eapply upd_eq; [|exact HU5|right; lia]. apply upd_any. eapply upd_nn; [exact HU02|exact HU4].
        -- intros k' v'. by apply two_leaves.
        -- done.
        -- by left.
        -- apply kept_holder. rewrite Ek. apply prefix_app_r. done.
        -- intros w Hw. apply thin_inv in Hw as [(? & _)|(b & t & Hbt & Hw)]; [done|]. apply elem_of_list_singleton in Hbt as [= -> ->]. by apply thin_holder in Hw.
  - destruct Hyc as [(-> & -> & Hgn)|(Hyd & y0 & -> & Hgn)].
    + (* the old key is a prefix of the new one *)
      rewrite <- app_assoc in Hgk, Hgn. rewrite <- Ek in Hgk. rewrite <- En in Hgn.
      rewrite Hgk, Hgn. rewrite has_prefix_false by apply not_prefix_longer.
      rewrite (proj2 (has_prefix_true _ _)) by (by exists (x :: x0)).
      apply wp_bind. eapply wp_setNodeLeaf; [exact Hn3|]. set (n4 := set_leaf n3 _). set (s4 := stN s3 _ n4).
      apply wp_bind. eapply wp_byteAt; [exact Hlk2|].
      assert (HU4 : upd none s2 s4) by (eapply upd_stN; [exact HU3|exact Hn3|by left]).
    assert (Hnx4 : nx s4 = nx s3) by done.
      eapply wp_mono; [eapply (eaddChild_spec s4 (nx s2) n4 [] x (S (nx s)) [] (Some (la, nk, ov)))|]; cbn [app].
      * split_and!; [cbn; by rewrite lookup_insert|cbn; lia|eapply enc_same; [|exact He3]; done|done|].
        eapply upd_leafrep; [exact (upd_nn _ _ _ HU02 HU4)| |apply not_none]. by eapply leafrep_self in Hlf.
      * constructor.
      * constructor.
      * done.
      * intros a5 s5 Hpost. apply wp_ret.
        edestruct (inner_of_add s4 s5 (nx s2) n4 [(x, Art (S (nx s)) [] (Some (nx s, key, v)) [])]) as (lf5 & Hr5 & Hmv5 & Ha5 & HU5 & Hni5); [exact Hpost|..].
        -- done.
        -- done.
        -- intros la0 k0 v0 [= <- <- <-]. rewrite En. split; [by rewrite <- En|]. split; [done|]. cbn. rewrite elem_of_list_singleton. done.
        -- intros b t Hbt. apply elem_of_list_singleton in Hbt as [= -> ->]. split; [eapply upd_rep; [exact (upd_nn _ _ _ HU2 HU4)|exact HT2|apply not_none]|].
           rewrite fp_eq. cbn. rewrite !elem_of_cons, elem_of_nil. lia.
        -- destruct lf5 as [[[la5 k5] v5]|]; [|done]. destruct Hmv5 as (-> & -> & Hla5). cbn in Hni5, Hla5.
           eexists. split; [|split; [|split; [exact Hr5|]]]; [done..|]. 
           rewrite !fp_eq. cbn. rewrite !elem_of_list_singleton in Hni5.
           assert (a5 <> la5) by (apply Hni5; lia).
           split_and!.
           ++ nodup_lia.
           ++ intros z. rewrite !elem_of_cons, !elem_of_nil. cbn in *. lia.
           ++ eapply upd_eq; [|exact HU5|right; lia]. apply upd_any. eapply upd_nn; [exact HU02|exact HU4].
           ++ intros k' v'. by apply two_leaves'.
           ++ done.
           ++ by left.
           ++ apply kept_holder. rewrite Ek. apply prefix_app_r. done.
           ++ intros w Hw. apply thin_inv in Hw as [(? & _)|(b & t & Hbt & Hw)]; [done|]. apply elem_of_list_singleton in Hbt as [= -> ->]. by apply thin_holder in Hw.
    + rewrite <- app_assoc in Hgk, Hgn. rewrite <- Ek in Hgk. rewrite <- En in Hgn.
      rewrite Hgk, Hgn. rewrite !has_prefix_false by (apply not_prefix_other; congruence).
      rewrite !(proj2 (Nat.ltb_lt _ _)) by lia.
      apply wp_bind. apply wp_bind. eapply wp_byteAt; [exact Hlk1|].
      eapply wp_mono; [eapply (eaddChild_spec s3 (nx s2) n3 [] y a' [] None)|]; cbn [app].
      { split_and!; try done. lia. }
      { constructor. } { constructor. } { done. }
      intros a4 s4 (n4 & lf4 & Hn4 & HU4 & Ha4 & Hlt4 & He4 & Hh4 & Hs4 & Hlf4 & Hmv4 & _ & Hlw4).
      destruct lf4 as [[[? ?] ?]|]; [done|].
      assert (Hok4 : inner_ok p q n4) by (by eapply hdr_inner).
      apply wp_bind. eapply wp_byteAt; [exact Hlk2|].
      pose proof (upd_next _ _ _ HU4) as Hnx4.
      set (T1 := Art a' pre (Some (la, nk, ov)) []) in *. set (T2 := Art (S (nx s)) [] (Some (nx s, key, v)) []) in *.
      assert (HfT1 : fp T1 = [a'; la]) by done. assert (HfT2 : fp T2 = [S (nx s); nx s]) by done.
      set (l1 := if decide (y < x) then [(y, T1)] else []). set (l2 := if decide (y < x) then [] else [(y, T1)]).
      assert (El : ents l1 ++ ents l2 = [(y, a')]) by (unfold l1, l2; by destruct (decide (y < x))).
      assert (Hin : forall b t, (b, t) ∈ l1 ++ (x, T2) :: l2 <-> (b, t) = (y, T1) \/ (b, t) = (x, T2)).
      { intros b t. unfold l1, l2. destruct (decide (y < x)); cbn; rewrite !elem_of_cons, elem_of_nil; tauto. }
      eapply wp_mono; [eapply (eaddChild_spec s4 a4 n4 (ents l1) x (S (nx s)) (ents l2) None)|]; cbn [app].
      { rewrite El. split_and!; try done. apply Hok4. }
      { unfold l1, below. destruct (decide (y < x)); cbn; repeat constructor; done. }
      { unfold l2, above. destruct (decide (y < x)); cbn; repeat constructor; cbn; lia. }
      { done. }
      intros a5 s5 Hpost. apply wp_ret.
      edestruct (inner_of_add s4 s5 a4 n4 (l1 ++ (x, T2) :: l2)) as (lf5 & Hr5 & Hmv5 & Ha5 & HU5 & Hni5).
      { unfold ents. rewrite fmap_app. exact Hpost. }
      { exact Hok4. }
      { by destruct l1. }
      { done. }
      { intros b t Hbt. apply Hin in Hbt as [[= -> ->]|[= -> ->]].
        - split; [eapply upd_rep; [exact HU4|eapply upd_rep; [exact HU3|exact HT1|apply not_none]|]|].
          + intros z. rewrite ?HfT1, ?HfT2. rewrite !elem_of_cons, elem_of_nil. lia.
          + rewrite ?HfT1, ?HfT2. rewrite !elem_of_cons, elem_of_nil. lia.
        - split; [eapply upd_rep; [exact HU4|eapply upd_rep; [exact (upd_nn _ _ _ HU2 HU3)|exact HT2|apply not_none]|]|].
          + intros z. rewrite ?HfT1, ?HfT2. rewrite !elem_of_cons, elem_of_nil. lia.
          + rewrite ?HfT1, ?HfT2. rewrite !elem_of_cons, elem_of_nil. lia. }
      destruct lf5 as [[[? ?] ?]|]; [done|].
      eexists. split; [|split; [|split; [exact Hr5|]]]; [done..|].
      split_and!.
      * rewrite fp_eq. cbn. unfold l1, l2. destruct (decide (y < x)); rewrite ?kfp_eq; cbn; nodup_lia.
      * intros z. rewrite fp_eq. cbn [lfa app]. rewrite elem_of_cons. rewrite elem_kfp. rewrite (fp_eq a). cbn. rewrite !elem_of_cons, elem_of_nil.
        intros [->|(b & t & Hbt & Hz)]; [lia|]. apply Hin in Hbt as [[= -> ->]|[= -> ->]]; rewrite ?HfT1, ?HfT2 in Hz;
          rewrite !elem_of_cons, elem_of_nil in Hz; lia.
      * eapply upd_eq; [|exact HU5|right; lia]. eapply upd_eq; [|exact HU4|right; lia]. apply upd_any. eapply upd_nn; [exact HU02|exact HU3].
      * intros k' v'. rewrite <- Hlv'. rewrite leaves_eq, elem_of_app, elem_kleaves. cbn [lfl].
        split.
        -- intros [Hx|(b & t & Hbt & Hx)]; [by apply elem_of_nil in Hx|]. apply Hin in Hbt as [[= -> ->]|[= -> ->]]; cbn in Hx; apply elem_of_list_singleton in Hx as [= -> ->]; rewrite !elem_of_cons; auto.
        -- rewrite !elem_of_cons, elem_of_nil. intros [E|[E|[]]]; right; injection E as -> ->.
           ++ exists x, T2. split; [apply Hin; auto|]. cbn. by apply elem_of_list_singleton.
           ++ exists y, T1. split; [apply Hin; auto|]. cbn. by apply elem_of_list_singleton.
      * split; [done|by left].
      * apply kept_holder. rewrite Ek. apply prefix_app_r. done.
      * intros w Hw. apply thin_inv in Hw as [(_ & Hw & _)|(b & t & Hbt & Hw)].
        { unfold l1, l2 in Hw. by destruct (decide (y < x)). }
        apply Hin in Hbt as [[= -> ->]|[= -> ->]]; by apply thin_holder in Hw.
Qed.
End Insert.
