(** Insert: replacing a leaf, descending into a child, adding a child. *)
From Verif Require Export Insert2.
From stdpp Require Export list.
Local Open Scope nat_scope.

(** membership in a list built with ++ and :: *)
Ltac mem := repeat (rewrite elem_of_app || rewrite elem_of_cons); auto 10.

Lemma NoDup_replace {A} (x y y' z : list A) : NoDup (x ++ y ++ z) -> NoDup y' -> (forall e, e ∈ y' -> e ∈ y \/ (e ∉ x /\ e ∉ z)) ->
  NoDup (x ++ y' ++ z).
Proof.
  rewrite !NoDup_app. intros (Hx & Hxyz & Hy & Hyz & Hz) Hy' Hin. split_and!; try done.
  - intros e Hex Hin'. apply elem_of_app in Hin' as [He|He].
    + destruct (Hin e He) as [Hy1|[Hn _]]; [|done]. apply (Hxyz e Hex). set_solver.
    + apply (Hxyz e Hex). set_solver.
  - intros e He Hez. destruct (Hin e He) as [Hy1|[_ Hn]]; [|done]. by apply (Hyz e).
Qed.

Lemma NoDup_mid {A} (x : list A) e z : NoDup (x ++ e :: z) -> e ∉ x ++ z.
Proof. rewrite NoDup_app, NoDup_cons. set_solver. Qed.
Lemma mid_notin {A} (x y z : list A) e : NoDup (x ++ y ++ z) -> e ∈ x ++ z -> e ∉ y.
Proof. rewrite !NoDup_app. set_solver. Qed.
Lemma elem_mid {A} (x : list A) e z y : y ∈ x ++ e :: z <-> y = e \/ y ∈ x ++ z.
Proof. set_solver. Qed.
Lemma elem_mid3 {A} (x y z : list A) e : e ∈ x ++ y ++ z <-> e ∈ x ++ z \/ e ∈ y.
Proof. set_solver. Qed.

Lemma findChild_same n n' b : same_arr n n' -> findChild n' b = findChild n b.
Proof. intros (E1 & E2 & E3 & E4). unfold findChild, getChild, getKeyAtIdx. by rewrite E1, E2, E3, E4. Qed.

Section Insert.
Context {V : Type} `{GoZero V} {D : KeyDom}.
Notation art := (art V).
Notation TM := (M (st V)).
Notation nd s := (h_nodes (s_h s)).
Notation lv s := (h_leaves (s_h s)).
Notation nx s := (h_next (s_h s)).

Lemma fp_cons a pre lf (kids : list (nat * art)) : NoDup (fp (Art a pre lf kids)) ->
  a ∉ lfa lf /\ a ∉ kfp kids /\ NoDup (lfa lf ++ kfp kids) /\ (forall x, x ∈ lfa lf -> x ∉ kfp kids).
Proof.
  rewrite fp_eq, NoDup_cons, not_elem_of_app. intros [[H1 H2] H3]. split_and!; try done.
  apply NoDup_app in H3. apply H3.
Qed.

Lemma rep_fpx (h : heap V) p t : rep h p t -> forall x, x ∈ fp t -> x < h_next h.
Proof. intros Hr x Hx. by eapply rep_fp. Qed.

Lemma rep_nonempty (h : heap V) p t : rep h p t -> exists k v, (k, v) ∈ leaves t.
Proof.
  revert p. induction t as [a pre lf kids IH] using art_ind'. intros p Hr.
  apply rep_inv in Hr as (n & Hn & Hlt & He & Hpl & Hlf & Hk1 & Hk2 & Hk3 & Hst & Hkids).
  destruct kids as [|[b t] kids].
  - destruct (Hk2 eq_refl) as (la & k & v & -> & _). exists k, v. apply elem_leaves. left. eauto.
  - destruct (IH b t ltac:(left) _ (Hkids b t ltac:(left))) as (k & v & Hin). exists k, v. apply elem_leaves. right. exists b, t. split; [left|done].
Qed.

(** txn.go:112-124 (the key of the leaf holder is the inserted key) *)
Lemma ins_same (s : st V) p a pre la key ov v : rep (s_h s) p (Art a pre (Some (la, key, ov)) []) ->
  NoDup (fp (Art a pre (Some (la, key, ov)) [])) ->
  wp (let! node := ewriteNode a in
      let! newLeaf := allocLeaf in
      setKV newLeaf key v ;;;
      setNodeLeaf node (Some newLeaf) ;;;
      ret (node, ov, true, true)) (ins_post s p (Art a pre (Some (la, key, ov)) []) key v) s.
Proof.
  intros Hr Hnd. pose proof (fun n => rep_low _ _ _ _ _ _ n Hr) as Hlow. apply rep_inv in Hr as (n & Hn & Hlt & He & Hpl & Hlf & Hk1 & Hk2 & Hk3 & Hst & Hkids).
  destruct (Hk2 eq_refl) as (? & ? & ? & [= <- <- <-] & Hpn). destruct (Hk3 _ _ _ eq_refl) as [Hsn _].
  destruct Hlf as (Hnl & Hlalt & l & Hl & Hlk & Hlv).
  eapply wp_use; [by apply (ewriteNode_spec s a n)|]. intros a' s1 (n' & Hn' & Hsame & Ha'lt & Ha' & HU1 & Hlv1).
  pose proof Hsame as (E1 & E2 & E3 & E4 & E5 & E6 & E7). pose proof (upd_next _ _ _ HU1) as Hnx1.
  apply wp_allocLeafKV. intros i. set (s2 := alL s1 _). apply wp_bind. eapply wp_setNodeLeaf; [exact Hn'|].
  set (n3 := set_leaf n' _). set (s3 := stN s2 a' n3). apply wp_ret.
  exists (Art a' pre (Some (nx s1, key, v)) []). cbn [fst snd aroot].
  assert (Ha'nx : a' <> nx s1) by lia.
  split; [done|]. split; [done|]. split; [|split; [|split; [|split; [|split; [|split; [|split]]]]]].
  - apply (rep_node _ _ _ _ _ _ n3); [..|change (n_kind n3) with (n_kind n'); rewrite E1; by apply Hlow]; try done.
    + cbn. by rewrite lookup_insert.
    + cbn. lia.
    + eapply enc_same; [|exact He]. by apply same_node_arr in Hsame.
    + cbn. by rewrite E4.
    + cbn. split; [done|]. split; [lia|]. eexists. rewrite lookup_insert. done.
    + intros _. eauto 10.
    + by intros la0 k0 v0 [= <- <- <-].
    + intros c Hc. rewrite (stale_same n n3) in Hc by by apply same_node_arr in Hsame.
      destruct (Hst c Hc) as (b & Hb & _). by apply elem_of_nil in Hb.
    + intros b t Hb. by apply elem_of_nil in Hb.
  - rewrite fp_eq. cbn. nodup_lia.
  - intros x. rewrite !fp_eq. cbn. rewrite !elem_of_cons, elem_of_nil. lia.
  - eapply upd_stN; [apply upd_alL, upd_any, HU1|exact Hn'|]. destruct Ha' as [->|Ha']; [right|by left].
    split; [left|]. right. rewrite E7, Hnl. intros P (_ & l0 & Hl0 & HP). cbn in Hl0. rewrite Hlv1, lookup_insert_ne in Hl0 by lia.
    split; [cbn; lia|]. eexists. cbn. rewrite lookup_insert. split; [done|]. cbn. assert (l0 = l) as -> by congruence. by rewrite Hlk in HP.
  - intros k' v'. cbn. rewrite !elem_of_list_singleton. split.
    + intros [= -> ->]. by left.
    + intros [[-> ->]|[Hne [= -> ->]]]; done.
  - cbn. left.
  - by apply kept_holder.
  - intros w Hw. by apply thin_holder in Hw.
Qed.

(** txn.go:164-176 (the key is the node's own, internal leaf): the reported old value is the zero value *)
Lemma ins_own (s : st V) p a pre la key ov kids v : rep (s_h s) p (Art a pre (Some (la, key, ov)) kids) -> kids <> [] ->
  NoDup (fp (Art a pre (Some (la, key, ov)) kids)) ->
  wp (let! newLeaf := ewriteLeaf la in
      let! x := loadL newLeaf in
      storeL newLeaf (setl_val x v) ;;;
      let! node := ewriteNode a in
      setNodeLeaf node (Some newLeaf) ;;;
      ret (node, go_zero, true, false)) (ins_post s p (Art a pre (Some (la, key, ov)) kids) key v) s.
Proof.
  intros Hr Hne Hnd. pose proof (rep_fpx _ _ _ Hr) as Hfp.
  pose proof (fun n => rep_low _ _ _ _ _ _ n Hr) as Hlow. apply rep_inv in Hr as (n & Hn & Hlt & He & Hpl & Hlf & Hk1 & Hk2 & Hk3 & Hst & Hkids).
  destruct (Hk3 _ _ _ eq_refl) as [Hsn Hk4]. destruct (Hk4 Hne) as [Hkey Hdol].
  destruct Hlf as (Hnl & Hlalt & l & Hl & Hlk & Hlv).
  apply fp_cons in Hnd as (Ha1 & Ha2 & Hnd & Hla2). cbn in Ha1, Hla2. rewrite elem_of_list_singleton in Ha1.
  specialize (Hla2 la ltac:(left)).
  eapply wp_use; [by apply (ewriteLeaf_spec s la l)|]. intros la' s1 (l' & Hl' & Hlk' & Hlv' & Hla'lt & Hla' & HU1 & Hnd1).
  pose proof (upd_next _ _ _ HU1) as Hnx1.
  apply wp_bind. eapply wp_loadL; [exact Hl'|]. apply wp_bind. apply wp_storeL. set (s2 := stL s1 la' _).
  assert (Hn2 : nd s2 !! a = Some n) by (cbn; by rewrite Hnd1).
  eapply wp_use; [apply (ewriteNode_spec s2 a n); [done|done|cbn; lia]|]. intros a' s3 (n' & Hn' & Hsame & Ha'lt & Ha' & HU3 & Hlv3).
  pose proof Hsame as (E1 & E2 & E3 & E4 & E5 & E6 & E7). pose proof (upd_next _ _ _ HU3) as Hnx3. cbn in Hnx3, Ha'.
  apply wp_bind. eapply wp_setNodeLeaf; [exact Hn'|]. set (n4 := set_leaf n' _). set (s4 := stN s3 a' n4). apply wp_ret.
  set (X := fun x => x = a \/ x = la).
  assert (HU2 : upd X s s2).
  { eapply upd_stL; [apply upd_any, HU1|exact Hl'|done|]. destruct Hla' as [->|]; [right; by right|by left]. }
  assert (HU4 : upd X s s4).
  { eapply upd_stN; [eapply upd_n; [exact HU2|exact HU3]|exact Hn'|]. destruct Ha' as [->|Ha']; [right|left; lia].
    split; [by left|]. right. rewrite E7, Hnl. intros P (_ & l0 & Hl0 & HP). rewrite Hlv3 in Hl0. cbn in Hl0.
    split; [lia|]. exists (setl_val l' v). rewrite Hlv3. cbn. rewrite lookup_insert. split; [done|]. cbn.
    destruct (decide (la = la')) as [->|Hne'].
    - rewrite lookup_insert in Hl0. injection Hl0 as <-. exact HP.
    - rewrite lookup_insert_ne in Hl0 by done. assert (lv s1 !! la = Some l) as Hl1 by (eapply upd_leaf; [exact HU1|done|done|by intros []]).
      assert (l0 = l) as -> by congruence. by rewrite Hlk'. }
  assert (HXk : forall x, x ∈ kfp kids -> ~ X x) by (intros x Hx [->| ->]; done).
  exists (Art a' pre (Some (la', key, v)) kids). cbn [fst snd aroot].
  split; [done|]. split; [done|]. split; [|split; [|split; [|split; [|split; [|split; [|split]]]]]].
  - apply (rep_node _ _ _ _ _ _ n4); [..|change (n_kind n4) with (n_kind n'); rewrite E1; by apply Hlow]; try done.
    + cbn. by rewrite lookup_insert.
    + eapply enc_same; [|exact He]. by apply same_node_arr in Hsame.
    + cbn. by rewrite E4.
    + cbn. split; [done|]. split; [lia|]. exists (setl_val l' v). rewrite Hlv3. cbn. rewrite lookup_insert. split; [done|]. cbn. split; [congruence|done].
    + cbn. rewrite E2, E4. done.
    + intros la0 k0 v0 [= <- <- <-]. done.
    + intros c Hc. rewrite (stale_same n n4) in Hc by by apply same_node_arr in Hsame.
      destruct (Hst c Hc) as (b & Hb & Hok). exists b. split; [done|]. by apply (upd_ext _ _ _ HU4).
    + intros b t Hbt. eapply upd_rep; [exact HU4|by apply Hkids|]. intros x Hx. apply HXk, elem_kfp. eauto.
  - assert (Hkl : forall x, x ∈ kfp kids -> x < nx s) by (intros x Hx; apply Hfp; rewrite fp_eq; mem).
    rewrite fp_eq. cbn. cbn in Hnd. apply NoDup_cons in Hnd as [_ Hnd]. apply NoDup_cons. split.
    + rewrite elem_of_cons. intros [->|Hin].
      * destruct Ha' as [->|Ha']; [|lia]. destruct Hla' as [->|]; [done|lia].
      * destruct Ha' as [->|Ha']; [done|]. specialize (Hkl _ Hin). lia.
    + apply NoDup_cons. split; [|done]. intros Hin. destruct Hla' as [->|Hla']; [done|]. specialize (Hkl _ Hin). lia.
  - intros x. rewrite !fp_eq. cbn. rewrite !elem_of_cons. intros [->|[->|Hx]]; [| |auto].
    + destruct Ha' as [->|]; [auto|right; lia].
    + destruct Hla' as [->|]; [auto|right; lia].
  - eapply upd_weaken; [exact HU4|]. intros x _ [->| ->]; rewrite fp_eq; cbn; mem.
  - intros k' v'. rewrite !elem_leaves. split.
    + intros [(la0 & [= <- <- <-])|(b & t & Hbt & Hin)]; [by left|]. right. split; [|right; eauto].
      intros ->. pose proof (rep_leaves _ _ _ _ _ (Hkids b t Hbt) Hin) as [Hpk _]. rewrite Hkey in Hpk.
      rewrite !app_assoc in Hpk. apply prefix_app_inv in Hpk as [z Hz]. injection Hz as <-. apply Hdol. apply elem_of_list_fmap. by exists (dollar, t).
    + intros [[-> ->]|[Hn0 [(la0 & [= <- <- <-])|Hin]]]; [left; eauto|done|by right].
  - split; [done|]. right. destruct kids as [|[b t] kids]; [done|].
    destruct (rep_nonempty _ _ _ (Hkids b t ltac:(left))) as (k' & v' & Hin). exists k', v'.
    pose proof (rep_leaves _ _ _ _ _ (Hkids b t ltac:(left)) Hin) as [Hpk _]. split_and!.
    + apply elem_leaves. right. exists b, t. split; [left|done].
    + intros ->. rewrite Hkey in Hpk. rewrite !app_assoc in Hpk. apply prefix_app_inv in Hpk as [z Hz]. injection Hz as <-. apply Hdol. left.
    + rewrite Hkey, app_assoc, getKey_snoc. etrans; [|exact Hpk]. rewrite app_assoc. apply prefix_app_r. done.
  - apply kept_same; [rewrite Hkey; by apply prefix_app_r|done|]. intros x Hx. eapply upd_nodes; [exact HU4| |by apply HXk].
    apply Hfp. rewrite fp_eq. mem.
  - intros w Hw. apply thin_inv in Hw as [(? & _)|(b & t & Hbt & Hw)]; [done|]. by eapply thin_kid.
Qed.

(** Leaves outside one child *)
Definition outside (lf : option (addr * bytes * V)) (kids : list (nat * art)) (k : bytes) (v : V) : Prop :=
  (exists la, lf = Some (la, k, v)) \/ exists b t, (b, t) ∈ kids /\ (k, v) ∈ leaves t.
Lemma leaves_split a pre lf k1 b (t : art) k2 k v :
  (k, v) ∈ leaves (Art a pre lf (k1 ++ (b, t) :: k2)) <-> outside lf (k1 ++ k2) k v \/ (k, v) ∈ leaves t.
Proof.
  rewrite elem_leaves. unfold outside. split.
  - intros [Hx|(b' & t' & Hbt & Hx)]; [auto|]. apply elem_of_app in Hbt as [Hbt|Hbt]; [left; right; exists b', t'; set_solver|].
    apply elem_of_cons in Hbt as [E|Hbt]; [injection E as -> ->; auto|left; right; exists b', t'; set_solver].
  - intros [[Hx|(b' & t' & Hbt & Hx)]|Hx]; [auto| |]; right.
    + exists b', t'. set_solver.
    + exists b, t. set_solver.
Qed.
Lemma outside_ne (h : heap V) p a pre lf k1 k2 kids b key k v : rep h p (Art a pre lf kids) -> kids <> [] ->
  (forall x, x ∈ k1 ++ k2 -> x ∈ kids) -> b ∉ (k1 ++ k2).*1 -> (forall la k v, lf = Some (la, k, v) -> b <> dollar) ->
  (p ++ pre ++ [b]) `prefix_of` key -> outside lf (k1 ++ k2) k v -> k <> key.
Proof.
  intros Hr Hne Hin Hb Hd Hp. apply rep_inv in Hr as (n & Hn & Hlt & He & Hpl & Hlf & Hk1 & Hk2 & Hk3 & Hst & Hkids).
  intros [(la & ->)|(b' & t & Hbt & Hx)] ->.
  - destruct (Hk3 _ _ _ eq_refl) as [_ Hk]. destruct (Hk Hne) as [-> _]. rewrite !app_assoc in Hp. apply prefix_app_inv in Hp as [z Hz].
    injection Hz as <-. by apply (Hd la (p ++ pre ++ [dollar]) v).
  - pose proof (rep_leaves _ _ _ _ _ (Hkids b' t (Hin _ Hbt)) Hx) as [Hpk _]. rewrite !app_assoc in Hp, Hpk.
    assert (b' = b) as -> by (eapply prefix_inj_byte; done). apply Hb, elem_of_list_fmap. by exists (b, t).
Qed.

(** txn.go:213-229, 292-306: descending into a child *)
Lemma ins_descend_at (s : st V) p a pre lf k1 b tc k2 n idx key v (m : TM (addr * V * bool * bool)) :
  rep (s_h s) p (Art a pre lf (k1 ++ (b, tc) :: k2)) -> NoDup (fp (Art a pre lf (k1 ++ (b, tc) :: k2))) ->
  nd s !! a = Some n -> findChild n b = Ok (Some (aroot tc), idx) -> (p ++ pre ++ [b]) `prefix_of` key ->
  wp m (ins_post s (p ++ pre ++ [b]) tc key v) s ->
  wp (let! '(newChild, val, mutatedSubTree, old) := m in
      let! node :=
        (if mutatedSubTree || negb (Nat.eqb newChild (aroot tc)) then
           let! node := ewriteNode a in
           setChild node idx (Some newChild) ;;;
           ret node
         else ret a) in
      ret (node, val, mutatedSubTree, old))
     (fun r s' => exists a' tc', ins_at s p (Art a pre lf (k1 ++ (b, tc) :: k2)) key v (Art a' pre lf (k1 ++ (b, tc') :: k2)) r s') s.
Proof.
  intros Hr Hnd Hn Hfc Hpk Hm. pose proof Hr as Hr0. pose proof (rep_fpx _ _ _ Hr) as Hfp. pose proof (rep_sorted _ _ _ _ _ _ Hr) as Hsor.
  set (kids := k1 ++ (b, tc) :: k2) in *. assert (Hne : kids <> []) by (by unfold kids; destruct k1).
  pose proof (fun n => rep_low _ _ _ _ _ _ n Hr) as Hlow. apply rep_inv in Hr as (n0 & Hn0 & Hlt & He & Hpl & Hlf & Hk1 & Hk2 & Hk3 & Hst & Hkids).
  assert (n0 = n) as -> by congruence.
  assert (Hfpk : fp (Art a pre lf kids) = a :: (lfa lf ++ kfp k1) ++ fp tc ++ kfp k2).
  { unfold kids. by rewrite fp_eq, kfp_app, kfp_cons, app_assoc. }
  assert (Hbo : b ∉ (k1 ++ k2).*1).
  { unfold kids in Hsor. rewrite fmap_app, fmap_cons in Hsor. rewrite fmap_app. by apply NoDup_mid in Hsor. }
  assert (Hbd : forall la k v, lf = Some (la, k, v) -> b <> dollar).
  { intros la k v0 E ->. destruct (Hk3 _ _ _ E) as [_ Hk]. destruct (Hk Hne) as [_ Hd]. apply Hd. unfold kids. rewrite fmap_app. cbn. mem. }
  assert (Hone : forall k v0, outside lf (k1 ++ k2) k v0 -> k <> key).
  { intros k v0. eapply outside_ne; try done. intros x Hx. unfold kids. apply elem_mid. by right. }
  rewrite Hfpk in Hnd, Hfp. apply NoDup_cons in Hnd as [Hani Hnd].
  assert (Hatc : a ∉ fp tc) by (intros Hx; apply Hani; mem).
  eapply wp_use; [exact Hm|]. intros [[[newChild val] mut] old] s1 (tc' & Er & Em & Hr1 & Hnd1 & Hin1 & HU1 & Hlv1 & Hrep1 & Hkept1 & Hthin1).
  cbn [fst snd] in Er, Em, Hrep1. subst mut newChild. cbn [orb].
  assert (Hn1 : nd s1 !! a = Some n) by (eapply upd_node; [exact HU1|done..]). pose proof (upd_next _ _ _ HU1) as Hnx1.
  pose proof (rep_fpx _ _ _ Hr1) as Hfp1.
  apply wp_bind. eapply wp_use; [apply (ewriteNode_spec s1 a n); [done|done|lia]|]. intros a' s2 (n' & Hn' & Hsame & Ha'lt & Ha' & HU2 & Hlv2).
  pose proof Hsame as (E1 & E2 & E3 & E4 & E5 & E6 & E7). pose proof (upd_next _ _ _ HU2) as Hnx2.
  assert (He' : enc n' (ents k1 ++ (b, aroot tc) :: ents k2)).
  { eapply enc_same; [by apply same_node_arr|]. unfold kids in He. rewrite ents_app in He. exact He. }
  destruct (enc_set _ _ _ _ _ He') as (idx' & Hfc' & _ & _ & _ & _ & _ & Hset).
  rewrite (findChild_same n n') in Hfc' by by apply same_node_arr. assert (idx' = idx) as -> by congruence.
  destruct (Hset (aroot tc')) as (Hset1 & Henc & Hstale). set (n3 := set_children _ _) in *.
  apply wp_bind. eapply wp_setChild; [exact Hn'|exact Hset1|]. set (s3 := stN s2 a' n3). apply wp_ret, wp_ret.
  assert (HU3 : upd (eq a') s2 s3).
  { eapply upd_stN; [apply upd_refl|exact Hn'|]. right. split; [done|]. by left. }
  (* cells outside the child *)
  assert (Hout : forall x, x ∈ lfa lf ++ kfp k1 ++ kfp k2 -> x ∉ fp tc /\ x <> a' /\ x < nx s /\ x <> a).
  { intros x Hx. rewrite app_assoc in Hx. assert (Hx' : x ∈ (lfa lf ++ kfp k1) ++ fp tc ++ kfp k2) by (apply elem_mid3; by left).
    assert (Hxlt : x < nx s) by (apply Hfp; by right). assert (x <> a) by (intros ->; done). split_and!; [|lia|done..].
    by apply (mid_notin _ _ _ _ Hnd). }
  assert (Hac' : a' ∉ fp tc').
  { intros Hx. destruct Ha' as [->|Ha']; [|specialize (Hfp1 _ Hx); lia]. destruct (Hin1 _ Hx); [done|lia]. }
  exists a', tc'. unfold ins_at. cbn [fst snd aroot].
  split; [done|]. split; [done|]. split; [|split; [|split; [|split; [|split; [|split; [|split]]]]]].
  - assert (Hfst : (k1 ++ (b, tc') :: k2).*1 = kids.*1) by (unfold kids; by rewrite !fmap_app).
    assert (Hlen : length (k1 ++ (b, tc') :: k2) = length kids) by (by rewrite <- (fmap_length fst), Hfst, fmap_length).
    apply (rep_node _ _ _ _ _ _ n3); [..|change (n_kind n3) with (n_kind n'); rewrite E1, Hlen; by apply Hlow].
    + cbn. by rewrite lookup_insert.
    + done.
    + rewrite ents_app. exact Henc.
    + cbn. by rewrite E4.
    + change (leafrep (s_h s3) (n_leaf n') lf). rewrite E7. eapply upd_leafrep; [exact HU3|eapply upd_leafrep; [exact HU2|eapply upd_leafrep; [exact HU1|exact Hlf|]|apply not_none]|].
      * intros x Hx. apply Hout. mem.
      * intros x Hx <-. destruct (Hout a') as (_ & ? & _); [mem|done].
    + intros _. cbn. rewrite E2, E4. by apply Hk1.
    + by destruct k1.
    + intros la k v0 E. destruct (Hk3 _ _ _ E) as [Hs1 Hs2]. split; [done|]. intros _. rewrite Hfst. by apply Hs2.
    + intros c Hc. rewrite Hstale, (stale_same n n') in Hc by by apply same_node_arr. destruct (Hst c Hc) as (b' & Hb' & Hok).
      exists b'. rewrite Hfst. split; [done|]. by apply (upd_ext _ _ _ HU3), (upd_ext _ _ _ HU2), (upd_ext _ _ _ HU1).
    + intros b' t Hbt. apply elem_of_app in Hbt. rewrite elem_of_cons in Hbt.
      assert (Hoth : (b', t) ∈ k1 ++ k2 -> rep (s_h s3) (p ++ pre ++ [b']) t).
      { intros Hbt'. assert (Hx : forall x, x ∈ fp t -> x ∈ lfa lf ++ kfp k1 ++ kfp k2).
        { intros x Hx. rewrite <- kfp_app. apply elem_of_app. right. apply elem_kfp. eauto. }
        eapply upd_rep; [exact HU3|eapply upd_rep; [exact HU2|eapply upd_rep; [exact HU1|apply Hkids|]|apply not_none]|].
        - unfold kids. apply elem_mid. by right.
        - intros x Hx'. by apply Hout, Hx.
        - intros x Hx' <-. by destruct (Hout a' (Hx _ Hx')) as (_ & ? & _). }
      destruct Hbt as [Hbt|[E|Hbt]]; [apply Hoth; mem| |apply Hoth; mem].
      injection E as -> ->. eapply upd_rep; [exact HU3|eapply upd_rep; [exact HU2|exact Hr1|apply not_none]|]. by intros x Hx <-.
  - rewrite fp_eq, kfp_app, kfp_cons, app_assoc. apply NoDup_cons. split.
    + rewrite !elem_of_app. intros [[Hx|Hx]|[Hx|Hx]]; [| |done|]; (destruct (Hout a') as (_ & ? & _); [mem|done]).
    + eapply NoDup_replace; [exact Hnd|done|]. intros e He1. destruct (Hin1 _ He1) as [|Hge]; [by left|]. right.
      split; intros Hx; (assert (e < nx s) by (apply Hfp; right; apply elem_mid3; left; apply elem_of_app; auto)); lia.
  - intros x. rewrite Hfpk, fp_eq, kfp_app, kfp_cons. rewrite !elem_of_cons, !elem_of_app.
    intros [->|[Hx|[Hx|[Hx|Hx]]]]; [|tauto|tauto| |tauto].
    + destruct Ha' as [->|]; [tauto|right; lia].
    + destruct (Hin1 _ Hx); tauto.
  - eapply upd_eq; [|exact HU3|].
    + eapply upd_n; [|exact HU2]. eapply upd_weaken; [exact HU1|]. intros x _ Hx. rewrite Hfpk. mem.
    + destruct Ha' as [->|]; [left|right; lia]. left.
  - intros k' v'. unfold kids. rewrite !leaves_split, Hlv1. specialize (Hone k' v'). tauto.
  - unfold kids. unfold report in *. destruct old.
    + apply leaves_split. by right.
    + destruct Hrep1 as [Hz [Hab|(k' & v' & Hx & Hy)]]; (split; [done|]).
      * left. intros v0. rewrite leaves_split. intros [Hx|Hx]; [by apply Hone in Hx|by apply (Hab v0)].
      * right. exists k', v'. split; [|done]. apply leaves_split. by right.
  - assert (Hstep : forall x, x < nx s1 -> x <> a' -> nd s3 !! x = nd s1 !! x).
    { intros x Hx Hxa. rewrite (upd_nodes _ _ _ x HU3) by (lia || by intros <-). eapply upd_nodes; [exact HU2|done|by intros []]. }
    unfold kids. apply kept_set.
    + etrans; [|exact Hpk]. by apply prefix_app_r.
    + intros x Hx. destruct (Hout x) as (F1 & F2 & F3 & _); [apply elem_of_app; by right|]. rewrite Hstep by (lia || done). by eapply upd_nodes; [exact HU1|..].
    + eapply kept_heap; [exact Hkept1|done|]. intros x Hx. apply Hstep; [by apply Hfp1|]. by intros ->.
  - intros w Hw. apply (thin_set _ a _ _ _ _ tc) in Hw as [Hw|Hw]; [done|]. eapply thin_kid; [|by apply Hthin1]. unfold kids. apply elem_mid. by left.
Qed.

Lemma ins_descend (s : st V) p a pre lf k1 b tc k2 n idx key v (m : TM (addr * V * bool * bool)) :
  rep (s_h s) p (Art a pre lf (k1 ++ (b, tc) :: k2)) -> NoDup (fp (Art a pre lf (k1 ++ (b, tc) :: k2))) ->
  nd s !! a = Some n -> findChild n b = Ok (Some (aroot tc), idx) -> (p ++ pre ++ [b]) `prefix_of` key ->
  wp m (ins_post s (p ++ pre ++ [b]) tc key v) s ->
  wp (let! '(newChild, val, mutatedSubTree, old) := m in
      let! node :=
        (if mutatedSubTree || negb (Nat.eqb newChild (aroot tc)) then
           let! node := ewriteNode a in
           setChild node idx (Some newChild) ;;;
           ret node
         else ret a) in
      ret (node, val, mutatedSubTree, old))
     (ins_post s p (Art a pre lf (k1 ++ (b, tc) :: k2)) key v) s.
Proof.
  intros H1 H2 H3 H4 H5 H6. eapply wp_mono; [by eapply ins_descend_at|]. intros r s' (a' & tc' & Hat). by eexists.
Qed.

(** txn.go:231-262, 308-318: a new child *)
Lemma ins_addkid_at (s s1 : st V) p a pre lf k1 k2 b key v :
  rep (s_h s) p (Art a pre lf (k1 ++ k2)) -> NoDup (fp (Art a pre lf (k1 ++ k2))) -> k1 ++ k2 <> [] ->
  below b (ents k1) -> above b (ents k2) -> b < 256 -> (forall la k v, lf = Some (la, k, v) -> b <> dollar) ->
  (p ++ pre ++ [b]) `prefix_of` key -> nx s1 = S (S (nx s)) -> upd none s s1 ->
  rep (s_h s1) (p ++ pre ++ [b]) (Art (S (nx s)) [] (Some (nx s, key, v)) []) ->
  wp (let! node := ewriteNode a in
      let! node := eaddChild node b (S (nx s)) in
      ret (node, go_zero, true, false))
     (fun r s' => exists a' lf' T, (forall la k0 v0, lf = Some (la, k0, v0) -> exists la', lf' = Some (la', k0, v0)) /\
        ins_at s p (Art a pre lf (k1 ++ k2)) key v (Art a' pre lf' (k1 ++ (b, T) :: k2)) r s') s1.
Proof.
  intros Hr Hnd Hne Hbl Hab Hb Hbd Hpk Hnx1 HU1 HT2. pose proof Hr as Hr0. pose proof (rep_fpx _ _ _ Hr) as Hfp.
  set (kids := k1 ++ k2) in *.
  pose proof (fun n => rep_low _ _ _ _ _ _ n Hr) as Hlow. apply rep_inv in Hr as (n & Hn & Hlt & He & Hpl & Hlf & Hk1 & Hk2 & Hk3 & Hst & Hkids).
  assert (Hbo : b ∉ kids.*1).
  { intros Hx. apply elem_of_list_fmap in Hx as ([b' t] & -> & Hx). cbn in *. unfold below, above in *. rewrite Forall_forall in Hbl, Hab.
    apply elem_of_app in Hx as [Hx|Hx].
    - specialize (Hbl (b', aroot t)). cbn in Hbl. enough (b' < b') by lia. apply Hbl, elem_ents. eauto.
    - specialize (Hab (b', aroot t)). cbn in Hab. enough (b' < b') by lia. apply Hab, elem_ents. eauto. }
  assert (Hone : forall k v0, outside lf kids k v0 -> k <> key).
  { intros k v0. eapply outside_ne; try done. }
  destruct (fp_cons _ _ _ _ Hnd) as (Ha1 & Ha2 & Hnd' & Hlfk).
  eapply wp_use; [apply (ewriteNode_spec s1 a n); [eapply upd_node; [exact HU1|done|done|by intros []]|done|lia]|].
  intros a' s2 (n' & Hn' & Hsame & Ha'lt & Ha' & HU2 & Hlv2).
  pose proof Hsame as (E1 & E2 & E3 & E4 & E5 & E6 & E7). pose proof (upd_next _ _ _ HU2) as Hnx2.
  pose proof (upd_nn _ _ _ HU1 HU2) as HU02.
  set (T2 := Art (S (nx s)) [] (Some (nx s, key, v)) []) in *.
  assert (HfT2 : fp T2 = [S (nx s); nx s]) by done.
  eapply wp_use; [eapply (eaddChild_spec s2 a' n' (ents k1) b (aroot T2) (ents k2) lf)|]; [|done..|].
  { split_and!; [done|done| | |].
    - rewrite <- ents_app. eapply enc_same; [by apply same_node_arr|exact He].
    - by rewrite E4.
    - rewrite E7. eapply upd_leafrep; [exact HU02|exact Hlf|apply not_none]. }
  intros a3 s3 (n3 & lf3 & Hn3 & HU3 & Ha3 & Ha3lt & He3 & Hh3 & Hs3 & Hlf3 & Hmv & Hni & Hlw). apply wp_ret.
  assert (Hlfl : forall x, x ∈ lfa lf3 -> x ∈ lfa lf \/ nx s2 <= x).
  { intros x Hx. destruct lf as [[[la k] v0]|], lf3 as [[[la' k'] v']|]; cbn in Hx; try done; [|by apply elem_of_nil in Hx].
    destruct Hmv as (_ & _ & Hmv). apply elem_of_list_singleton in Hx as ->. destruct Hmv as [->|]; [left; left|by right]. }
  assert (Ha'n : a' ∉ lfa lf /\ a' ∉ kfp kids /\ a' ∉ fp T2).
  { split_and!; rewrite ?HfT2, ?elem_of_cons, ?elem_of_nil; [| |lia].
    - intros Hx. destruct Ha' as [->|Ha']; [done|]. assert (a' < nx s) by (apply Hfp; rewrite fp_eq; mem). lia.
    - intros Hx. destruct Ha' as [->|Ha']; [done|]. assert (a' < nx s) by (apply Hfp; rewrite fp_eq; mem). lia. }
  destruct Ha'n as (Ha'1 & Ha'2 & Ha'3).
  assert (Hperm : forall x, x ∈ k1 ++ (b, T2) :: k2 <-> x = (b, T2) \/ x ∈ kids) by (intros x; apply elem_mid).
  assert (Hfst : forall b', b' ∈ (k1 ++ (b, T2) :: k2).*1 <-> b' = b \/ b' ∈ kids.*1).
  { intros b'. unfold kids. rewrite !fmap_app, fmap_cons. apply elem_mid. }
  exists a3, lf3, T2. split.
  { intros la k0 v0 ->. destruct lf3 as [[[la' k'] v']|]; [|done]. destruct Hmv as (-> & -> & _). eauto. }
  unfold ins_at. cbn [fst snd aroot].
  split; [done|]. split; [done|]. split; [|split; [|split; [|split; [|split; [|split; [|split]]]]]].
  - apply (rep_node _ _ _ _ _ _ n3); [..|destruct Hlw as [->|Hlw]; [rewrite E1; etrans; [by apply Hlow|unfold kids; rewrite !app_length; cbn; lia]|]; rewrite app_length in Hlw |- *; cbn in Hlw |- *; unfold ents in Hlw; by rewrite !fmap_length in Hlw]; try done.
    + rewrite ents_app. exact He3.
    + apply Hh3.
    + intros _. destruct (Hk1 Hne) as (F1 & F2 & F3). destruct Hh3 as (G1 & G2 & G3). rewrite E2 in G1, G3. rewrite E4 in G3. rewrite F1 in G3.
      split_and!; congruence.
    + by destruct k1.
    + intros la3 k3 v3 ->. destruct lf as [[[la k] v0]|]; [|done]. destruct Hmv as (-> & -> & _).
      destruct (Hk3 _ _ _ eq_refl) as [Hs1 Hs2]. split; [done|]. intros _. destruct (Hs2 Hne) as [-> Hd]. split; [done|].
      rewrite Hfst. intros [Eb|Hx]; [|done]. by apply (Hbd _ _ _ eq_refl).
    + intros c Hc. apply Hs3 in Hc. rewrite (stale_same n n') in Hc by by apply same_node_arr. destruct (Hst c Hc) as (b' & Hb' & Hok).
      exists b'. rewrite Hfst. split; [by right|]. by apply (upd_ext _ _ _ HU3), (upd_ext _ _ _ HU02).
    + intros b' t Hbt. apply Hperm in Hbt as [E|Hbt].
      * injection E as -> ->. eapply upd_rep; [exact HU3|eapply upd_rep; [exact HU2|exact HT2|apply not_none]|]. by intros x Hx <-.
      * eapply upd_rep; [exact HU3|eapply upd_rep; [exact HU02|by apply Hkids|apply not_none]|]. intros x Hx <-. apply Ha'2, elem_kfp. eauto.
  - assert (Hkk : forall x, x ∈ kfp k1 ++ fp T2 ++ kfp k2 <-> x ∈ kfp kids \/ x ∈ fp T2) by (intros x; unfold kids; rewrite kfp_app; apply elem_mid3).
    assert (Hklt : forall x, x ∈ lfa lf ++ kfp kids -> x < nx s) by (intros x Hx; apply Hfp; rewrite fp_eq; by right).
    assert (Hfresh : forall x, x ∈ fp T2 -> nx s <= x < nx s1).
    { intros x. rewrite HfT2, !elem_of_cons, elem_of_nil. lia. }
    rewrite fp_eq, kfp_app, kfp_cons. apply NoDup_cons. split; [|apply NoDup_app; split_and!].
    + rewrite elem_of_app, Hkk. intros [Hx|[Hx|Hx]].
      * by apply Hni.
      * destruct Ha3 as [->|Ha3]; [done|]. assert (a3 < nx s) by (apply Hklt; mem). lia.
      * destruct Ha3 as [->|Ha3]; [done|]. apply Hfresh in Hx. lia.
    + destruct lf3 as [[[la k] v0]|]; cbn; [apply NoDup_singleton|constructor].
    + intros x Hx. rewrite Hkk. intros [Hx'|Hx'].
      * destruct (Hlfl _ Hx) as [Hx1|Hx1]; [by apply (Hlfk x)|]. assert (x < nx s) by (apply Hklt; mem). lia.
      * apply Hfresh in Hx'. destruct (Hlfl _ Hx) as [Hx1|Hx1]; [|lia]. assert (x < nx s) by (apply Hklt; mem). lia.
    + apply (NoDup_replace _ []); cbn [app].
      * rewrite <- kfp_app. apply NoDup_app in Hnd' as (_ & _ & Hnd'). exact Hnd'.
      * rewrite HfT2. nodup_lia.
      * intros e He1. right. apply Hfresh in He1. split; intros Hx; (assert (e < nx s) by (apply Hklt; unfold kids; rewrite kfp_app; mem)); lia.
  - intros x. rewrite !fp_eq, kfp_app, kfp_cons. rewrite !elem_of_cons, !elem_of_app. unfold kids. rewrite kfp_app, elem_of_app.
    intros [->|[Hx|[Hx|[Hx|Hx]]]]; [| |tauto| |tauto].
    + destruct Ha3 as [->|]; [|right; lia]. destruct Ha' as [->|]; [tauto|right; lia].
    + destruct (Hlfl _ Hx); [tauto|right; lia].
    + right. rewrite HfT2, !elem_of_cons, elem_of_nil in Hx. lia.
  - eapply upd_eq; [apply upd_any, HU02|exact HU3|]. destruct Ha' as [->|]; [left; left|right; lia].
  - intros k' v'. rewrite leaves_split. rewrite elem_leaves. change ((∃ la, lf = Some (la, k', v')) ∨ _) with (outside lf kids k' v').
    assert (Eo : outside lf3 (k1 ++ k2) k' v' <-> outside lf kids k' v').
    { unfold outside. apply or_iff_compat_r. destruct lf as [[[la k] v0]|], lf3 as [[[la3 k3] v3]|]; try done.
      destruct Hmv as (-> & -> & _). split; intros [la0 [= -> -> ->]]; eauto. }
    rewrite Eo. specialize (Hone k' v'). change (leaves T2) with [(key, v)]. rewrite elem_of_list_singleton.
    split; [intros [Hx|[= -> ->]]; tauto|]. intros [[-> ->]|[_ Hx]]; tauto.
  - split; [done|]. left. intros v0. rewrite elem_leaves. intros Hx. by apply (Hone key v0).
  - apply kept_same.
    + etrans; [|exact Hpk]. by apply prefix_app_r.
    + intros x Hx. apply Hperm. by right.
    + intros x Hx. assert (x < nx s) by (apply Hfp; rewrite fp_eq; mem).
      rewrite (upd_nodes _ _ _ x HU3) by (lia || by intros <-). eapply upd_nodes; [exact HU02|done|by intros []].
  - intros w Hw. apply thin_inv in Hw as [(_ & Hw & _)|(b' & t & Hbt & Hw)].
    + exfalso. rewrite app_length in Hw. cbn in Hw. apply Hne. unfold kids. destruct k1, k2; cbn in Hw; [done|lia..].
    + apply Hperm in Hbt as [E|Hbt]; [injection E as -> ->; by apply thin_holder in Hw|]. by eapply thin_kid.
Qed.
Lemma ins_addkid (s s1 : st V) p a pre lf k1 k2 b key v :
  rep (s_h s) p (Art a pre lf (k1 ++ k2)) -> NoDup (fp (Art a pre lf (k1 ++ k2))) -> k1 ++ k2 <> [] ->
  below b (ents k1) -> above b (ents k2) -> b < 256 -> (forall la k v, lf = Some (la, k, v) -> b <> dollar) ->
  (p ++ pre ++ [b]) `prefix_of` key -> nx s1 = S (S (nx s)) -> upd none s s1 ->
  rep (s_h s1) (p ++ pre ++ [b]) (Art (S (nx s)) [] (Some (nx s, key, v)) []) ->
  wp (let! node := ewriteNode a in
      let! node := eaddChild node b (S (nx s)) in
      ret (node, go_zero, true, false))
     (ins_post s p (Art a pre lf (k1 ++ k2)) key v) s1.
Proof.
  intros H1 H2 H3 H4 H5 H6 H7 H8 H9 H10 H11. eapply wp_mono; [by eapply ins_addkid_at|]. intros r s' (a' & lf' & T & _ & Hat). by eexists.
Qed.
End Insert.
