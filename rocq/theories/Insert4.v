(** Insert: splitting a compressed path, and the main theorem. *)
From Verif Require Export Insert3.
From stdpp Require Export list.
Local Open Scope nat_scope.

Section Insert.
Context {V : Type} `{GoZero V} {D : KeyDom}.
Notation art := (art V).
Notation TM := (M (st V)).
Notation nd s := (h_nodes (s_h s)).
Notation lv s := (h_leaves (s_h s)).
Notation nx s := (h_next (s_h s)).

(** A second child below a fresh inner node *)
Lemma add_second (s : st V) a n p q x y T1 T2 : nd s !! a = Some n -> a < nx s -> enc n [(y, aroot T1)] -> n_leaf n = None -> inner_ok p q n ->
  x <> y -> x < 256 -> rep (s_h s) (p ++ q ++ [y]) T1 -> rep (s_h s) (p ++ q ++ [x]) T2 -> a ∉ fp T1 -> a ∉ fp T2 ->
  NoDup (fp T1) -> NoDup (fp T2) -> (forall z, z ∈ fp T1 -> z ∉ fp T2) ->
  wp (eaddChild a x (aroot T2)) (fun a5 s5 => exists t', a5 = aroot t' /\ rep (s_h s5) p t' /\ NoDup (fp t') /\ (a5 = a \/ nx s <= a5) /\
    upd (eq a) s s5 /\ (forall z, z ∈ fp t' -> z = a5 \/ z ∈ fp T1 \/ z ∈ fp T2) /\
    (forall k v, (k, v) ∈ leaves t' <-> (k, v) ∈ leaves T1 \/ (k, v) ∈ leaves T2) /\
    (forall z r, noded (p ++ q ++ [y]) T1 z r -> noded p t' z r) /\
    (forall w, thin p t' w -> thin (p ++ q ++ [y]) T1 w \/ thin (p ++ q ++ [x]) T2 w)) s.
Proof.
  intros Hn Hlt He Hl Hok Hxy Hx256 HT1 HT2 Ha1 Ha2 Hnd1 Hnd2 Hdj.
  set (l1 := if decide (y < x) then [(y, T1)] else []). set (l2 := if decide (y < x) then [] else [(y, T1)]).
  assert (El : ents l1 ++ ents l2 = [(y, aroot T1)]) by (unfold l1, l2; by destruct (decide (y < x))).
  assert (Ek : kfp l1 ++ kfp l2 = fp T1) by (unfold l1, l2; destruct (decide (y < x)); rewrite ?kfp_cons; cbn; by rewrite ?app_nil_r).
  assert (Hin : forall b t, (b, t) ∈ l1 ++ (x, T2) :: l2 <-> (b, t) = (y, T1) \/ (b, t) = (x, T2)).
  { intros b t. unfold l1, l2. destruct (decide (y < x)); cbn; rewrite !elem_of_cons, elem_of_nil; tauto. }
  eapply wp_mono; [eapply (eaddChild_spec s a n (ents l1) x (aroot T2) (ents l2) None)|]; cbn [app].
  { rewrite El. split_and!; try done. apply Hok. }
  { unfold l1, below. destruct (decide (y < x)); cbn; repeat constructor; done. }
  { unfold l2, above. destruct (decide (y < x)); cbn; repeat constructor; cbn; lia. }
  { done. }
  intros a5 s5 Hpost. pose proof (rep_fpx _ _ _ HT1) as Hf1. pose proof (rep_fpx _ _ _ HT2) as Hf2.
  edestruct (inner_of_add s s5 a n (l1 ++ (x, T2) :: l2)) as (lf5 & Hr5 & Hmv5 & Ha5 & HU5 & Hni5).
  { unfold ents. rewrite fmap_app. exact Hpost. }
  { exact Hok. }
  { by destruct l1. }
  { done. }
  { intros b t Hbt. apply Hin in Hbt as [[= -> ->]|[= -> ->]]; done. }
  destruct lf5 as [[[? ?] ?]|]; [done|].
  exists (Art a5 q None (l1 ++ (x, T2) :: l2)). split; [done|]. split; [exact Hr5|]. split; [|split; [done|split; [done|split; [|split; [|split]]]]].
  - rewrite fp_eq, kfp_app, kfp_cons. cbn [lfa app]. apply NoDup_cons. split.
    + rewrite elem_mid3, Ek. intros [Hx|Hx]; (destruct Ha5 as [->|Ha5]; [done|]); [apply Hf1 in Hx|apply Hf2 in Hx]; lia.
    + apply (NoDup_replace _ []); cbn [app]; [by rewrite Ek|done|]. intros e He2. right.
      split; intros Hx; apply (Hdj e); try done; rewrite <- Ek; mem.
  - intros z. rewrite fp_eq, kfp_app, kfp_cons. cbn [lfa app]. rewrite elem_of_cons, elem_mid3, Ek. tauto.
  - intros k v. rewrite elem_leaves. split.
    + intros [[la [=]]|(b & t & Hbt & Hx)]. apply Hin in Hbt as [[= -> ->]|[= -> ->]]; auto.
    + intros [Hx|Hx]; right; [exists y, T1|exists x, T2]; (split; [apply Hin; auto|done]).
  - intros z r Hz. eapply (noded_kid _ _ _ _ _ y T1); [apply Hin; by left|exact Hz].
  - intros w Hw. apply thin_inv in Hw as [(_ & Hw & _)|(b & t & Hbt & Hw)].
    + unfold l1, l2 in Hw. by destruct (decide (y < x)).
    + apply Hin in Hbt as [[= -> ->]|[= -> ->]]; auto.
Qed.

(** A node whose compressed path lost its first bytes *)
Lemma rep_shorter (s s' : st V) p q c pre' a lf kids n a' n' : rep (s_h s) p (Art a (q ++ c :: pre') lf kids) -> kids <> [] ->
  nd s !! a = Some n -> nd s' !! a' = Some n' -> a' < nx s' -> same_arr n n' -> n_leaf n' = n_leaf n ->
  n_plen n' = length pre' -> length (n_partial n') = maxPrefixLen ->
  take (maxPrefixLen `min` length pre') (n_partial n') = take maxPrefixLen pre' ->
  upd (eq a) s s' -> a ∉ lfa lf ++ kfp kids -> rep (s_h s') (p ++ q ++ [c]) (Art a' pre' lf kids).
Proof.
  intros Hr Hne Hn Hn' Hlt' Hsa Hl Hpl Hpp Hpt HU Ha. pose proof (rep_low _ _ _ _ _ _ _ Hr Hn) as Hlow.
  apply rep_inv in Hr as (n0 & Hn0 & Hlt & He & Hpl0 & Hlf & Hk1 & Hk2 & Hk3 & Hst & Hkids).
  assert (n0 = n) as -> by congruence.
  assert (Ep : forall r, (p ++ q ++ [c]) ++ pre' ++ r = p ++ (q ++ c :: pre') ++ r) by (intros r; by rewrite <- !app_assoc).
  apply (rep_node _ _ _ _ _ _ n'); [..|by replace (n_kind n') with (n_kind n) by (symmetry; apply Hsa)]; try done.
  - by eapply enc_same.
  - rewrite Hl. eapply upd_leafrep; [exact HU|exact Hlf|]. intros x Hx <-. apply Ha. mem.
  - intros _. split; [done|]. split; [done|]. destruct (Hk1 Hne) as (_ & _ & Hd). rewrite <- (app_nil_r pre'), Ep, app_nil_r. exact Hd.
  - intros la k v E. destruct (Hk3 _ _ _ E) as [Hs1 Hs2]. split; [done|]. intros Hx. rewrite Ep. by apply Hs2.
  - intros x Hx. rewrite (stale_same n n') in Hx by done. destruct (Hst x Hx) as (b & Hb & Hok). exists b. split; [done|].
    rewrite Ep. by apply (upd_ext _ _ _ HU).
  - intros b t Hbt. rewrite Ep. eapply upd_rep; [exact HU|by apply Hkids|]. intros x Hx <-. apply Ha, elem_of_app. right. apply elem_kfp. eauto.
Qed.

(** txn.go:264-319: the key leaves the compressed path of the node *)
Lemma ins_split (s : st V) p a q c pre' lf kids n key v b x :
  rep (s_h s) p (Art a (q ++ c :: pre') lf kids) -> kids <> [] -> NoDup (fp (Art a (q ++ c :: pre') lf kids)) ->
  nd s !! a = Some n -> stored key -> key = p ++ q ++ b :: x -> b <> c ->
  wp (let! newNode := allocNode K4 in
      updN newNode (fun m => Ok (set_plen m (length q))) ;;;
      (if Nat.ltb (length (n_partial n)) (maxPrefixLen `min` length q) then panic else
       copyPartial newNode (take (maxPrefixLen `min` length q) (n_partial n))) ;;;
      let! node := ewriteNode a in
      let! n := loadN node in
      let! newNode :=
        (if Nat.leb (n_plen n) maxPrefixLen then
           let! c := byteAt (n_partial n) (length q) in
           let! newNode := eaddChild newNode c node in
           let plen' := n_plen n - (length q + 1) in
           updN node (fun m => Ok (set_plen m plen')) ;;;
           let len := maxPrefixLen `min` plen' in
           (if Nat.ltb (length (n_partial n)) (length q + 1 + len) then panic else
            copyPartial node (slice (n_partial n) (length q + 1) (length q + 1 + len))) ;;;
           ret newNode
         else
           let plen' := n_plen n - (length q + 1) in
           updN node (fun m => Ok (set_plen m plen')) ;;;
           let! h := getH in
           let! lo := lift (minimum (walk_fuel h) h (Some node)) in
           match lo with
           | None => panic
           | Some la =>
               let! l := loadL la in
               let! c := byteAt (l_key l) (length p + length q) in
               let! newNode := eaddChild newNode c node in
               let len := maxPrefixLen `min` plen' in
               (if Nat.ltb (length (l_key l)) (length p + length q + 1 + len) then panic else
                copyPartial node (slice (l_key l) (length p + length q + 1) (length p + length q + 1 + len))) ;;;
               ret newNode
           end) in
      let! newLeaf := makeLeaf key v in
      let! newNode :=
        (if Nat.ltb (length p + length q) (length key) then
           let! c := byteAt key (length p + length q) in
           eaddChild newNode c newLeaf
         else ret newNode) in
      ret (newNode, go_zero, true, false))
     (ins_post s p (Art a (q ++ c :: pre') lf kids) key v) s.
Proof.
  intros Hr Hne Hnd Hn Hsk Ek Hbc. pose proof Hr as Hr0. pose proof (rep_fpx _ _ _ Hr) as Hfp.
  pose proof (fp_bound _ _ _ Hr Hnd) as Hfb. set (pre := q ++ c :: pre') in *.
  apply rep_inv in Hr as (n0 & Hn0 & Hlt & He & Hpl & Hlf & Hk1 & Hk2 & Hk3 & Hst & Hkids).
  assert (n0 = n) as -> by congruence. destruct (Hk1 Hne) as (Hpn & Hpt & Hndol).
  destruct (fp_cons _ _ _ _ Hnd) as (Ha1 & Ha2 & Hnd' & Hlfk).
  assert (Hlpre : length pre = length q + S (length pre')) by (unfold pre; by rewrite app_length).
  assert (Hsrc : take (maxPrefixLen `min` length q) (n_partial n) = take maxPrefixLen q).
  { replace (maxPrefixLen `min` length q) with ((maxPrefixLen `min` length q) `min` (maxPrefixLen `min` length pre)) by lia.
    rewrite <- take_take, Hpt, take_take. replace ((maxPrefixLen `min` length q) `min` maxPrefixLen) with (maxPrefixLen `min` length q) by lia.
    unfold pre. rewrite take_app_le by lia. rewrite <- take_take. by rewrite firstn_all. }
  rewrite (proj2 (Nat.ltb_ge _ _)) by lia. rewrite Hsrc.
  apply newInner_spec; [rewrite take_length; lia|].
  intros s1 n1 Hnx1 Hn1 HU1 Hlv1 He1 Hl1 Hs1 Hkd1 Hpl1 Hpp1 Hpt1.
  assert (Hndpq : opn (p ++ q)).
  { unfold pre in Hndol. rewrite app_assoc in Hndol. by apply opn_app in Hndol. }
  assert (Hok1 : inner_ok p q n1) by (split_and!; try done; [rewrite Hs1; intros z; apply not_elem_of_nil|by rewrite Hkd1]).
  eapply wp_use; [apply (ewriteNode_spec s1 a n); [eapply upd_node; [exact HU1|done|done|by intros []]|done|lia]|].
  intros a' s2 (n2 & Hn2 & Hsame & Ha'lt & Ha' & HU2 & Hlv2).
  pose proof Hsame as (E1 & E2 & E3 & E4 & E5 & E6 & E7). pose proof (upd_next _ _ _ HU2) as Hnx2.
  pose proof (upd_nn _ _ _ HU1 HU2) as HU02.
  assert (Hn1' : nd s2 !! nx s = Some n1) by (eapply upd_node; [exact HU2|done|lia|by intros []]).
  apply wp_bind. eapply wp_loadN; [exact Hn2|]. rewrite E2, E4, Hpn.
  set (T1 := Art a' pre' lf kids).
  assert (HfT1 : fp T1 = a' :: lfa lf ++ kfp kids) by done.
  eapply wp_use with (P := fun nn' s4 => exists n3, nd s4 !! nn' = Some n3 /\ nn' < nx s4 /\ enc n3 [(c, a')] /\ n_leaf n3 = None /\
     inner_ok p q n3 /\ (nn' = nx s \/ nx s2 <= nn') /\ upd (eq a) s s4 /\ rep (s_h s4) (p ++ q ++ [c]) T1).
  { assert (Hani : a ∉ lfa lf ++ kfp kids) by (by rewrite not_elem_of_app).
    assert (Haddpre : forall s3, upd (eq a) s s3 -> nx s2 = nx s3 -> nd s3 !! nx s = Some n1 -> add_pre s3 (nx s) n1 ([] ++ []) None).
    { intros s3 _ Hnx3 Hn3. split_and!; try done. lia. }
    replace (length pre - (length q + 1)) with (length pre') by lia.
    destruct (Nat.leb_spec (length pre) maxPrefixLen) as [Hle|Hgt].
    - assert (HP : exists R, n_partial n = pre ++ R).
      { exists (drop (length pre) (n_partial n)). rewrite <- (take_drop (length pre) (n_partial n)) at 1. f_equal.
        replace (maxPrefixLen `min` length pre) with (length pre) in Hpt by lia. rewrite Hpt. by apply firstn_all2. }
      destruct HP as [R HP].
      apply wp_bind. eapply wp_byteAt.
      { rewrite HP. unfold pre. rewrite <- app_assoc, lookup_app_r, Nat.sub_diag by lia. done. }
      eapply wp_use; [eapply (eaddChild_spec s2 (nx s) n1 [] c a' [] None)|]; [|constructor|constructor| |].
      { apply Haddpre; [by apply upd_any|done|done]. }
      { destruct (rep_nonempty _ _ _ Hr0) as (k & v0 & Hin). destruct kids as [|[b0 t0] kids]; [done|].
        destruct (rep_nonempty _ _ _ (Hkids b0 t0 ltac:(left))) as (k0 & v1 & Hin0).
        pose proof (rep_leaves _ _ _ _ _ (Hkids b0 t0 ltac:(left)) Hin0) as [[z Hz] Hs0].
        apply (stored_lookup k0 (length p + length q)); [done|]. rewrite Hz. unfold pre. rewrite <- !app_assoc.
        rewrite lookup_app_r by lia. rewrite lookup_app_r by lia. by replace (length p + length q - length p - length q) with 0 by lia. }
      cbn [app]. intros nn' s3 (n3 & lf3 & Hn3 & HU3 & Hnn & Hnnlt & He3 & Hh3 & Hs3 & Hlf3 & Hmv3 & _ & Hlw3).
      destruct lf3 as [[[? ?] ?]|]; [done|]. pose proof (upd_next _ _ _ HU3) as Hnx3.
      assert (Hn2' : nd s3 !! a' = Some n2) by (eapply upd_node; [exact HU3|done|done|lia]).
      apply wp_bind. eapply wp_updN; [exact Hn2'|reflexivity|].
      rewrite HP, app_length. rewrite (proj2 (Nat.ltb_ge _ _)) by lia.
      apply wp_bind. eapply wp_copyPartial; [cbn; by rewrite lookup_insert|]. apply wp_ret.
      match goal with |- context [stN (stN s3 a' ?n4) a' ?n5] => set (n4' := n4); set (n5' := n5); set (s4 := stN (stN s3 a' n4') a' n5') end.
      assert (Hnna : nn' <> a') by lia.
      assert (HU4 : upd (eq a) s s4).
      { eapply upd_trans; [|eapply upd_stN with (X := eq a') (n0 := n4'); [eapply upd_stN; [apply upd_refl|exact Hn2'|right; split; [done|by left]]| |right; split; [done|by left]]|].
        - eapply upd_eq; [apply upd_any, HU02|exact HU3|by right].
        - cbn. by rewrite lookup_insert.
        - intros z Hz <-. lia. }
      assert (Hsl : slice (pre ++ R) (length q + 1) (length q + 1 + maxPrefixLen `min` length pre') = pre').
      { unfold slice. replace (length q + 1 + maxPrefixLen `min` length pre' - (length q + 1)) with (length pre') by lia.
        unfold pre. rewrite <- app_assoc. replace (length q + 1) with (length (q ++ [c])) by (rewrite app_length; cbn; lia).
        change (c :: pre') with ([c] ++ pre'). rewrite <- (app_assoc [c]). rewrite (app_assoc q), drop_app, take_app. done. }
      exists n3. split_and!.
      + cbn. by rewrite !lookup_insert_ne by done.
      + done.
      + done.
      + apply Hlf3.
      + eapply hdr_inner; [exact Hh3|exact Hs3|exact Hok1|exact Hlw3].
      + lia.
      + exact HU4.
      + eapply (rep_shorter s s4 p q c pre' a lf kids n a' n5'); try done.
        * cbn. by rewrite lookup_insert.
        * cbn. lia.
        * unfold n5'. cbn [n_partial set_partial set_plen n4']. rewrite Hsl, E4, HP. rewrite go_copy_0 by (rewrite app_length; lia).
          rewrite app_length, drop_length. rewrite <- HP, Hpl. lia.
        * unfold n5'. cbn [n_partial set_partial set_plen n4']. rewrite Hsl, E4, HP. rewrite go_copy_0 by (rewrite app_length; lia).
          replace (maxPrefixLen `min` length pre') with (length pre') by lia. rewrite take_app. symmetry. apply firstn_all2. lia.
    - apply wp_bind. eapply wp_updN; [exact Hn2|reflexivity|]. set (n3 := set_plen n2 _). set (s3 := stN s2 a' n3).
      assert (HU3 : upd (eq a) s s3).
      { eapply upd_stN; [apply upd_any, HU02|exact Hn2|]. destruct Ha' as [->|]; [right|left; lia]. split; [done|by left]. }
      apply wp_bind, wp_getH.
      destruct (minimum_step (s_h s3) p pre lf kids a' n3 (nx s3)) as (la & l & b0 & z & Emin & Hl & Hlk).
      { cbn. by rewrite lookup_insert. }
      { eapply enc_same; [|exact He]. by apply same_node_arr in Hsame. }
      { change (leafrep (s_h s3) (n_leaf n2) lf). rewrite E7. eapply upd_leafrep; [exact HU3|exact Hlf|]. intros y Hy <-. apply Hani. mem. }
      { done. }
      { change (isLeafN n2 = false). unfold isLeafN. rewrite E3, E7. pose proof (rep_isLeaf _ _ _ _ _ _ _ Hr0 Hn) as Hil. unfold isLeafN in Hil. rewrite Hil.
        by rewrite bool_decide_false. }
      { intros la k v0 E. apply (Hk3 _ _ _ E). done. }
      { intros b0 t Hbt. split; [eapply upd_rep; [exact HU3|by apply Hkids|]|].
        - intros y Hy <-. apply Ha2, elem_kfp. eauto.
        - pose proof (fp_kid_le a pre lf kids b0 t Hbt). pose proof (upd_next _ _ _ HU3). lia. }
      apply wp_bind. eapply wp_lift; [exact Emin|]. apply wp_bind. eapply wp_loadL; [exact Hl|].
      apply wp_bind. eapply wp_byteAt.
      { rewrite Hlk. unfold pre. rewrite <- !app_assoc. rewrite lookup_app_r by lia. rewrite lookup_app_r by lia.
        by replace (length p + length q - length p - length q) with 0 by lia. }
      assert (Hc256 : c < 256).
      { destruct kids as [|[b1 t1] kids]; [done|].
        destruct (rep_nonempty _ _ _ (Hkids b1 t1 ltac:(left))) as (k0 & v1 & Hin0).
        pose proof (rep_leaves _ _ _ _ _ (Hkids b1 t1 ltac:(left)) Hin0) as [[z' Hz] Hs0].
        apply (stored_lookup k0 (length p + length q)); [done|]. rewrite Hz. unfold pre. rewrite <- !app_assoc.
        rewrite lookup_app_r by lia. rewrite lookup_app_r by lia. by replace (length p + length q - length p - length q) with 0 by lia. }
      assert (Hnx3 : nx s3 = nx s2) by done.
      eapply wp_use; [eapply (eaddChild_spec s3 (nx s) n1 [] c a' [] None)|]; [|constructor|constructor|done|].
      { apply Haddpre; [exact HU3|done|]. cbn. rewrite lookup_insert_ne; [done|lia]. }
      cbn [app]. intros nn' s4 (n4 & lf4 & Hn4 & HU4 & Hnn & Hnnlt & He4 & Hh4 & Hs4 & Hlf4 & Hmv4 & _ & Hlw4).
      destruct lf4 as [[[? ?] ?]|]; [done|]. pose proof (upd_next _ _ _ HU4) as Hnx4.
      assert (Hn3' : nd s4 !! a' = Some n3) by (eapply upd_node; [exact HU4|cbn; by rewrite lookup_insert|done|lia]).
      rewrite Hlk. rewrite (proj2 (Nat.ltb_ge _ _)) by (rewrite !app_length; cbn; lia).
      apply wp_bind. eapply wp_copyPartial; [exact Hn3'|]. apply wp_ret.
      match goal with |- context [stN s4 a' ?n5] => set (n5' := n5); set (s5 := stN s4 a' n5') end.
      assert (Hnna : nn' <> a') by lia.
      assert (HU5 : upd (eq a) s s5).
      { eapply upd_eq; [eapply upd_eq; [exact HU3|exact HU4|by right]|eapply upd_stN with (X := eq a'); [apply upd_refl|exact Hn3'|right; split; [done|by left]]|].
        destruct Ha'; [left|right]; [done|lia]. }
      assert (Hsl : slice (p ++ pre ++ b0 :: z) (length p + length q + 1) (length p + length q + 1 + maxPrefixLen `min` length pre') = take maxPrefixLen pre').
      { unfold slice. replace (length p + length q + 1 + maxPrefixLen `min` length pre' - (length p + length q + 1)) with (maxPrefixLen `min` length pre') by lia.
        replace (p ++ pre ++ b0 :: z) with ((p ++ q ++ [c]) ++ pre' ++ b0 :: z) by (unfold pre; rewrite <- !app_assoc; done).
        replace (length p + length q + 1) with (length (p ++ q ++ [c])) by (rewrite !app_length; cbn; lia).
        rewrite drop_app, take_app_le by lia. rewrite <- take_take. by rewrite firstn_all. }
      exists n4. split_and!.
      + cbn. by rewrite !lookup_insert_ne by done.
      + done.
      + done.
      + apply Hlf4.
      + eapply hdr_inner; [exact Hh4|exact Hs4|exact Hok1|exact Hlw4].
      + lia.
      + exact HU5.
      + eapply (rep_shorter s s5 p q c pre' a lf kids n a' n5'); try done.
        * cbn. by rewrite lookup_insert.
        * cbn. lia.
        * unfold n5'. cbn [n_partial set_partial set_plen n3]. rewrite Hsl, E4. rewrite go_copy_0 by (rewrite take_length; lia).
          rewrite app_length, drop_length. rewrite take_length, Hpl. lia.
        * unfold n5'. cbn [n_partial set_partial set_plen n3]. rewrite Hsl, E4. rewrite go_copy_0 by (rewrite take_length; lia).
          rewrite take_app_alt; [done|]. by rewrite take_length. }
  intros nn' s4 (n3 & Hn3 & Hnnlt & He3 & Hl3 & Hok3 & Hnn & HU4 & HT1).
  pose proof (upd_next _ _ _ HU4) as Hnx4. pose proof (rep_fpx _ _ _ HT1) as HfT1'.
  assert (Hkx : stored ((p ++ q) ++ b :: x)) by (by rewrite <- app_assoc, <- Ek).
  destruct (stored_dec _ _ _ Hkx) as (_ & Hb256 & _).
  assert (Hp1 : (p ++ q ++ [b]) `prefix_of` key) by (rewrite Ek; exists x; by rewrite <- !app_assoc).
  eapply wp_use; [apply (makeLeaf_spec s4 key v (p ++ q ++ [b]) Hsk Hp1)|]. cbn beta.
  intros nl s5 (-> & Hnx5 & HU5 & HT2 & _).
  rewrite (proj2 (Nat.ltb_lt _ _)) by (rewrite Ek, !app_length; cbn; lia).
  apply wp_bind. apply wp_bind. eapply wp_byteAt.
  { rewrite Ek, lookup_app_r by lia. rewrite lookup_app_r by lia. by replace (length p + length q - length p - length q) with 0 by lia. }
  set (T2 := Art (S (nx s4)) [] (Some (nx s4, key, v)) []) in *.
  assert (HfT2 : forall z, z ∈ fp T2 <-> z = S (nx s4) \/ z = nx s4).
  { intros z. change (fp T2) with [S (nx s4); nx s4]. rewrite !elem_of_cons, elem_of_nil. tauto. }
  assert (HfT1s : forall z, z ∈ fp T1 -> z = a' \/ (z < nx s /\ z ∈ fp (Art a pre lf kids) /\ z <> a)).
  { intros z. rewrite HfT1, elem_of_cons. intros [->|Hz]; [by left|]. right. split_and!; [apply Hfp; by right|by right|].
    intros ->. apply elem_of_app in Hz as [?|?]; done. }
  eapply wp_mono; [eapply (add_second s5 nn' n3 p q b c T1 T2)|].
  - eapply upd_node; [exact HU5|done|done|by intros []].
  - lia.
  - done.
  - done.
  - done.
  - done.
  - done.
  - eapply upd_rep; [exact HU5|exact HT1|apply not_none].
  - exact HT2.
  - intros Hz. apply HfT1s in Hz. lia.
  - rewrite HfT2. lia.
  - rewrite HfT1. apply NoDup_cons. split; [|done]. intros Hz. destruct Ha' as [->|Ha'].
    + apply elem_of_app in Hz as [?|?]; done.
    + assert (a' < nx s) by (apply Hfp; by right). lia.
  - change (fp T2) with [S (nx s4); nx s4]. nodup_lia.
  - intros z Hz. rewrite HfT2. apply HfT1' in Hz. lia.
  - intros a6 s6 (t' & -> & Hr6 & Hnd6 & Ha6 & HU6 & Hfp6 & Hlv6 & Hno6 & Hthin6). apply wp_ret.
    exists t'. cbn [fst snd]. split; [done|]. split; [done|]. split; [done|]. split; [done|]. split; [|split; [|split; [|split; [|split]]]].
    + intros z Hz. destruct (Hfp6 z Hz) as [->|[Hz1|Hz1]].
      * right. lia.
      * apply HfT1s in Hz1 as [->|(_ & ? & _)]; [|by left]. destruct Ha' as [->|]; [left; left|right; lia].
      * apply HfT2 in Hz1. right. lia.
    + eapply upd_eq; [|exact HU6|right; lia]. eapply upd_n; [|exact HU5]. eapply upd_weaken; [exact HU4|]. intros z _ <-. left.
    + intros k' v'. rewrite Hlv6. assert (El : (k', v') ∈ leaves T1 <-> (k', v') ∈ leaves (Art a pre lf kids)) by done. rewrite El.
      change (leaves T2) with [(key, v)]. rewrite elem_of_list_singleton.
      assert (Hkey : (k', v') ∈ leaves (Art a pre lf kids) -> k' <> key).
      { rewrite <- El. intros Hin ->. pose proof (rep_leaves _ _ _ _ _ HT1 Hin) as [Hpx _]. rewrite Ek in Hpx. rewrite !app_assoc in Hpx.
        apply prefix_app_inv in Hpx as [z Hz]. injection Hz as ->. done. }
      split; [intros [Hx|[= -> ->]]; tauto|]. intros [[-> ->]|[_ Hx]]; tauto.
    + split; [done|]. left. intros v0 Hin. assert (El : (key, v0) ∈ leaves T1) by done.
      pose proof (rep_leaves _ _ _ _ _ HT1 El) as [Hpx _]. rewrite Ek in Hpx. rewrite !app_assoc in Hpx.
      apply prefix_app_inv in Hpx as [z Hz]. injection Hz as ->. done.
    + apply kept_move; [rewrite Ek; by apply prefix_app_r| |].
      * intros b' t z Hbt Hz. assert (Hzk : z ∈ kfp kids) by (apply elem_kfp; eauto). assert (z < nx s) by (apply Hfp; rewrite fp_eq; mem).
        rewrite (upd_nodes _ _ _ z HU6) by (lia || (intros <-; lia)). rewrite (upd_nodes _ _ _ z HU5) by (lia || by intros []).
        eapply upd_nodes; [exact HU4|done|]. by intros <-.
      * intros b' t z r Hbt Hz. apply Hno6. eapply (noded_kid _ _ _ _ _ b' t); [done|].
        replace ((p ++ q ++ [c]) ++ pre' ++ [b']) with (p ++ pre ++ [b']) by (unfold pre; by rewrite <- !app_assoc). done.
    + intros w Hw. apply Hthin6 in Hw as [Hw|Hw]; [|by apply thin_holder in Hw]. apply thin_inv in Hw as [(-> & Hone1 & ->)|(b' & t & Hbt & Hw)].
      * replace ((p ++ q ++ [c]) ++ pre') with (p ++ pre) by (unfold pre; by rewrite <- !app_assoc). by apply thin_root.
      * eapply thin_kid; [exact Hbt|]. replace (p ++ pre ++ [b']) with ((p ++ q ++ [c]) ++ pre' ++ [b']) by (unfold pre; by rewrite <- !app_assoc). done.
Qed.
End Insert.
