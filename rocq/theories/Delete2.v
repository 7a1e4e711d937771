(** Delete: the cases. *)
From Verif Require Export Delete.
From stdpp Require Export list.
Local Open Scope nat_scope.

Section Delete.
Context {V : Type} `{GoZero V} {D : KeyDom}.
Notation art := (art V).
Notation TM := (M (st V)).
Notation nd s := (h_nodes (s_h s)).
Notation lv s := (h_leaves (s_h s)).
Notation nx s := (h_next (s_h s)).

Definition del_tree (s : st V) (p : bytes) (t t' : art) (s' : st V) : Prop :=
  rep (s_h s') p t' /\ NoDup (fp t') /\ (forall x, x ∈ fp t' -> x ∈ fp t \/ nx s <= x).
Definition del_post (s : st V) (p : bytes) (t : art) (key : bytes) (r : option addr * option ref * bool) (s' : st V) : Prop :=
  exists ot', r.1.1 = aroot <$> ot' /\ upd (fun x => x ∈ fp t) s s' /\
    (exists la l, r.1.2 = Some (RL la) /\ la ∈ fp t /\ lv s' !! la = Some l /\ (key, l_val l) ∈ leaves t) /\
    match ot' with
    | None => forall k v, (k, v) ∈ leaves t -> k = key
    | Some t' => del_tree s p t t' s' /\ (forall k v, (k, v) ∈ leaves t' <-> (k, v) ∈ leaves t /\ k <> key) /\
        kept key (s_h s) (s_h s') p t t' /\ (forall w, thin p t' w -> thin p t w \/ w ++ [dollar] = key)
    end.

(** txn.go:404-420: the node's own leaf *)
Lemma del_own (s : st V) p a pre la key v kids : rep (s_h s) p (Art a pre (Some (la, key, v)) kids) ->
  NoDup (fp (Art a pre (Some (la, key, v)) kids)) -> length kids < 256 ->
  wp (let! node := ewriteNode a in
      setNodeLeaf node None ;;;
      let! n := loadN node in
      if Nat.ltb 0 (n_nch n) then ret (Some node, Some (RL la), true)
      else ret (None, Some (RL la), false)) (del_post s p (Art a pre (Some (la, key, v)) kids) key) s.
Proof.
  intros Hr Hnd Hfull. pose proof (rep_fpx _ _ _ Hr) as Hfp.
  pose proof (fun n => rep_low _ _ _ _ _ _ n Hr) as Hlow. apply rep_inv in Hr as (n & Hn & Hlt & He & Hpl & Hlf & Hk1 & Hk2 & Hk3 & Hst & Hkids).
  destruct (Hk3 _ _ _ eq_refl) as [Hsn Hk4]. destruct Hlf as (Hnl & Hlalt & l & Hl & Hlk & Hlv).
  apply fp_cons in Hnd as (Ha1 & Ha2 & Hnd & Hla2). cbn in Ha1, Hla2. rewrite elem_of_list_singleton in Ha1.
  specialize (Hla2 la ltac:(left)).
  eapply wp_use; [by apply (ewriteNode_spec s a n)|]. intros a' s1 (n' & Hn' & Hsame & Ha'lt & Ha' & HU1 & Hlv1).
  pose proof Hsame as (E1 & E2 & E3 & E4 & E5 & E6 & E7). pose proof (upd_next _ _ _ HU1) as Hnx1.
  apply wp_bind. eapply wp_setNodeLeaf; [exact Hn'|]. set (n2 := set_leaf n' None). set (s2 := stN s1 a' n2).
  apply wp_bind. eapply wp_loadN; [cbn; by rewrite lookup_insert|].
  assert (HU2 : upd (eq a) s s2).
  { eapply upd_stN; [apply upd_any, HU1|exact Hn'|]. destruct Ha' as [->|]; [right|by left]. split; [done|]. right. done. }
  assert (HU2' : upd (fun x => x ∈ fp (Art a pre (Some (la, key, v)) kids)) s s2).
  { eapply upd_weaken; [exact HU2|]. intros x _ <-. rewrite fp_eq. mem. }
  assert (Hla : exists la0 l0, Some (RL la) = Some (RL la0) /\ la0 ∈ fp (Art a pre (Some (la, key, v)) kids) /\ lv s2 !! la0 = Some l0 /\
     (key, l_val l0) ∈ leaves (Art a pre (Some (la, key, v)) kids)).
  { exists la, l. split; [done|]. split; [rewrite fp_eq; cbn; mem|]. split; [cbn; by rewrite Hlv1|]. rewrite Hlv. apply elem_leaves. left. eauto. }
  assert (Hnch : n_nch n2 = length kids).
  { cbn. rewrite E3, (enc_nch _ _ He). unfold ents. rewrite fmap_length. by apply u8_small. }
  rewrite Hnch. destruct (Nat.ltb_spec 0 (length kids)) as [Hpos|Hz]; apply wp_ret.
  - assert (Hne : kids <> []) by (by intros ->; cbn in Hpos; lia). destruct (Hk4 Hne) as [Hkey Hdol].
    exists (Some (Art a' pre None kids)). cbn [fst snd]. split; [done|]. split; [done|]. split; [done|]. split; [split; [|split]|split; [|split]].
    + apply (rep_node _ _ _ _ _ _ n2); [..|change (n_kind n2) with (n_kind n'); rewrite E1; by apply Hlow].
      * cbn. by rewrite lookup_insert.
      * done.
      * eapply enc_same; [|exact He]. by apply same_node_arr in Hsame.
      * cbn. by rewrite E4.
      * done.
      * cbn. rewrite E2, E4. done.
      * done.
      * done.
      * intros c Hc. rewrite (stale_same n n2) in Hc by by apply same_node_arr in Hsame.
        destruct (Hst c Hc) as (b & Hb & Hok). exists b. split; [done|]. by apply (upd_ext _ _ _ HU2).
      * intros b t Hbt. eapply upd_rep; [exact HU2|by apply Hkids|]. intros x Hx <-. apply Ha2, elem_kfp. eauto.
    + rewrite fp_eq. cbn. cbn in Hnd. apply NoDup_cons in Hnd as [_ Hnd]. apply NoDup_cons. split; [|done].
      intros Hin. destruct Ha' as [->|Ha']; [done|]. assert (a' < nx s) by (apply Hfp; rewrite fp_eq; cbn; mem). lia.
    + intros x. rewrite !fp_eq. cbn. rewrite !elem_of_cons. intros [->|Hx]; [|auto]. destruct Ha' as [->|]; [auto|right; lia].
    + intros k' v'. rewrite !elem_leaves. split.
      * intros [(la0 & [=])|(b & t & Hbt & Hin)]. split; [right; eauto|].
        intros ->. pose proof (rep_leaves _ _ _ _ _ (Hkids b t Hbt) Hin) as [Hpk _]. rewrite Hkey in Hpk.
        rewrite !app_assoc in Hpk. apply prefix_app_inv in Hpk as [z Hz]. injection Hz as <-. apply Hdol. apply elem_of_list_fmap. by exists (dollar, t).
      * intros [[(la0 & [= <- <- <-])|Hin] Hn0]; [done|by right].
    + apply kept_same; [rewrite Hkey; by apply prefix_app_r|done|]. intros x Hx. eapply upd_nodes; [exact HU2| |by intros <-].
      apply Hfp. rewrite fp_eq. mem.
    + intros w Hw. apply thin_inv in Hw as [(_ & _ & ->)|(b & t & Hbt & Hw)]; [right; by rewrite Hkey, <- app_assoc|]. left. by eapply thin_kid.
  - exists None. cbn [fst snd]. split; [done|]. split; [done|]. split; [done|].
    destruct kids; [|cbn in Hz; lia]. intros k v0. cbn. rewrite elem_of_list_singleton. by intros [= -> ->].
Qed.

(** A child is replaced *)
Lemma set_kid (s s1 : st V) p a pre lf k1 b tc tc' k2 n idx :
  rep (s_h s) p (Art a pre lf (k1 ++ (b, tc) :: k2)) -> NoDup (fp (Art a pre lf (k1 ++ (b, tc) :: k2))) ->
  nd s !! a = Some n -> findChild n b = Ok (Some (aroot tc), idx) -> upd (fun x => x ∈ fp tc) s s1 ->
  del_tree s (p ++ pre ++ [b]) tc tc' s1 ->
  wp (let! node := ewriteNode a in
      setChild node idx (Some (aroot tc')) ;;;
      ret node)
     (fun a' s' => (exists n', nd s' !! a' = Some n' /\ n_nch n' = n_nch n) /\ upd (fun x => x ∈ fp (Art a pre lf (k1 ++ (b, tc) :: k2))) s s' /\
        lv s' = lv s1 /\ del_tree s p (Art a pre lf (k1 ++ (b, tc) :: k2)) (Art a' pre lf (k1 ++ (b, tc') :: k2)) s' /\
        (forall key, p `prefix_of` key -> kept key (s_h s) (s_h s1) (p ++ pre ++ [b]) tc tc' ->
           kept key (s_h s) (s_h s') p (Art a pre lf (k1 ++ (b, tc) :: k2)) (Art a' pre lf (k1 ++ (b, tc') :: k2)))) s1.
Proof.
  intros Hr Hnd Hn Hfc HU1 (Hr1 & Hnd1 & Hin1). pose proof Hr as Hr0. pose proof (rep_fpx _ _ _ Hr) as Hfp.
  set (kids := k1 ++ (b, tc) :: k2) in *. assert (Hne : kids <> []) by (by unfold kids; destruct k1).
  pose proof (fun n => rep_low _ _ _ _ _ _ n Hr) as Hlow. apply rep_inv in Hr as (n0 & Hn0 & Hlt & He & Hpl & Hlf & Hk1 & Hk2 & Hk3 & Hst & Hkids).
  assert (n0 = n) as -> by congruence.
  assert (Hfpk : fp (Art a pre lf kids) = a :: (lfa lf ++ kfp k1) ++ fp tc ++ kfp k2).
  { unfold kids. by rewrite fp_eq, kfp_app, kfp_cons, app_assoc. }
  rewrite Hfpk in Hnd, Hfp. apply NoDup_cons in Hnd as [Hani Hnd].
  assert (Hatc : a ∉ fp tc) by (intros Hx; apply Hani; mem).
  assert (Hn1 : nd s1 !! a = Some n) by (eapply upd_node; [exact HU1|done..]). pose proof (upd_next _ _ _ HU1) as Hnx1.
  pose proof (rep_fpx _ _ _ Hr1) as Hfp1.
  eapply wp_use; [apply (ewriteNode_spec s1 a n); [done|done|lia]|]. intros a' s2 (n' & Hn' & Hsame & Ha'lt & Ha' & HU2 & Hlv2).
  pose proof Hsame as (E1 & E2 & E3 & E4 & E5 & E6 & E7). pose proof (upd_next _ _ _ HU2) as Hnx2.
  assert (He' : enc n' (ents k1 ++ (b, aroot tc) :: ents k2)).
  { eapply enc_same; [by apply same_node_arr|]. unfold kids in He. rewrite ents_app in He. exact He. }
  destruct (enc_set _ _ _ _ _ He') as (idx' & Hfc' & _ & _ & _ & _ & _ & Hset).
  rewrite (findChild_same n n') in Hfc' by by apply same_node_arr. assert (idx' = idx) as -> by congruence.
  destruct (Hset (aroot tc')) as (Hset1 & Henc & Hstale). set (n3 := set_children _ _) in *.
  apply wp_bind. eapply wp_setChild; [exact Hn'|exact Hset1|]. set (s3 := stN s2 a' n3). apply wp_ret.
  assert (HU3 : upd (eq a') s2 s3).
  { eapply upd_stN; [apply upd_refl|exact Hn'|]. right. split; [done|]. by left. }
  (* cells outside the child *)
  assert (Hout : forall x, x ∈ lfa lf ++ kfp k1 ++ kfp k2 -> x ∉ fp tc /\ x <> a' /\ x < nx s /\ x <> a).
  { intros x Hx. rewrite app_assoc in Hx. assert (Hx' : x ∈ (lfa lf ++ kfp k1) ++ fp tc ++ kfp k2) by (apply elem_mid3; by left).
    assert (Hxlt : x < nx s) by (apply Hfp; by right). assert (x <> a) by (intros ->; done). split_and!; [|lia|done..].
    by apply (mid_notin _ _ _ _ Hnd). }
  assert (Hac' : a' ∉ fp tc').
  { intros Hx. destruct Ha' as [->|Ha']; [|specialize (Hfp1 _ Hx); lia]. destruct (Hin1 _ Hx); [done|lia]. }
  split; [|split; [|split; [|split; [split; [|split]|]]]].
  - exists n3. cbn. rewrite lookup_insert. done.
  - eapply upd_eq; [|exact HU3|].
    + eapply upd_n; [|exact HU2]. eapply upd_weaken; [exact HU1|]. intros x _ Hx. rewrite Hfpk. mem.
    + destruct Ha' as [->|]; [left|right; lia]. left.
  - done.
  - assert (Hfst : (k1 ++ (b, tc') :: k2).*1 = kids.*1) by (unfold kids; by rewrite !fmap_app).
    assert (Hlen : length (k1 ++ (b, tc') :: k2) = length kids) by (by rewrite <- (fmap_length fst), Hfst, fmap_length).
    apply (rep_node _ _ _ _ _ _ n3); [..|change (n_kind n3) with (n_kind n'); rewrite E1, Hlen; by apply Hlow].
    + cbn. by rewrite lookup_insert.
    + done.
    + rewrite ents_app. exact Henc.
    + cbn. by rewrite E4.
    + change (leafrep (s_h s3) (n_leaf n') lf). rewrite E7. eapply upd_leafrep; [exact HU3|eapply upd_leafrep; [exact HU2|eapply upd_leafrep; [exact HU1|exact Hlf|]|apply not_none]|].
      * intros x Hx. apply Hout. mem.
      * intros x Hx <-. destruct (Hout a') as (_ & ? & _); [mem|done].
    + intros _. cbn. rewrite E2, E4. by apply Hk1.
    + by destruct k1.
    + intros la k v0 E. destruct (Hk3 _ _ _ E) as [Hs1 Hs2]. split; [done|]. intros _. rewrite Hfst. by apply Hs2.
    + intros c Hc. rewrite Hstale, (stale_same n n') in Hc by by apply same_node_arr. destruct (Hst c Hc) as (b' & Hb' & Hok).
      exists b'. rewrite Hfst. split; [done|]. by apply (upd_ext _ _ _ HU3), (upd_ext _ _ _ HU2), (upd_ext _ _ _ HU1).
    + intros b' t Hbt. apply elem_of_app in Hbt. rewrite elem_of_cons in Hbt.
      assert (Hoth : (b', t) ∈ k1 ++ k2 -> rep (s_h s3) (p ++ pre ++ [b']) t).
      { intros Hbt'. assert (Hx : forall x, x ∈ fp t -> x ∈ lfa lf ++ kfp k1 ++ kfp k2).
        { intros x Hx. rewrite <- kfp_app. apply elem_of_app. right. apply elem_kfp. eauto. }
        eapply upd_rep; [exact HU3|eapply upd_rep; [exact HU2|eapply upd_rep; [exact HU1|apply Hkids|]|apply not_none]|].
        - unfold kids. apply elem_mid. by right.
        - intros x Hx'. by apply Hout, Hx.
        - intros x Hx' <-. by destruct (Hout a' (Hx _ Hx')) as (_ & ? & _). }
      destruct Hbt as [Hbt|[E|Hbt]]; [apply Hoth; mem| |apply Hoth; mem].
      injection E as -> ->. eapply upd_rep; [exact HU3|eapply upd_rep; [exact HU2|exact Hr1|apply not_none]|]. by intros x Hx <-.
  - rewrite fp_eq, kfp_app, kfp_cons, app_assoc. apply NoDup_cons. split.
    + rewrite !elem_of_app. intros [[Hx|Hx]|[Hx|Hx]]; [| |done|]; (destruct (Hout a') as (_ & ? & _); [mem|done]).
    + eapply NoDup_replace; [exact Hnd|done|]. intros e He1. destruct (Hin1 _ He1) as [|Hge]; [by left|]. right.
      split; intros Hx; (assert (e < nx s) by (apply Hfp; right; apply elem_mid3; left; apply elem_of_app; auto)); lia.
  - intros x. rewrite Hfpk, fp_eq, kfp_app, kfp_cons. rewrite !elem_of_cons, !elem_of_app.
    intros [->|[Hx|[Hx|[Hx|Hx]]]]; [|tauto|tauto| |tauto].
    + destruct Ha' as [->|]; [tauto|right; lia].
    + destruct (Hin1 _ Hx); tauto.
  - intros key Hpk Hkept1. assert (Hstep : forall x, x < nx s1 -> x <> a' -> nd s3 !! x = nd s1 !! x).
    { intros x Hx Hxa. rewrite (upd_nodes _ _ _ x HU3) by (lia || by intros <-). eapply upd_nodes; [exact HU2|done|by intros []]. }
    unfold kids. apply kept_set; [done| |].
    + intros x Hx. destruct (Hout x) as (F1 & F2 & F3 & _); [apply elem_of_app; by right|]. rewrite Hstep by (lia || done). by eapply upd_nodes; [exact HU1|..].
    + eapply kept_heap; [exact Hkept1|done|]. intros x Hx. apply Hstep; [by apply Hfp1|]. by intros ->.
Qed.

Lemma noded_leaf (h : heap V) p t x q : rep h p t -> noded p t x q -> exists k v, (k, v) ∈ leaves t /\ q `prefix_of` k.
Proof.
  intros Hr Hx. revert Hr. induction Hx as [p a pre lf kids|p a pre lf kids b t x q Hbt Hx IH]; intros Hr.
  - destruct (rep_nonempty _ _ _ Hr) as (k & v & Hin). exists k, v. split; [done|]. by destruct (rep_leaves _ _ _ _ _ Hr Hin).
  - apply rep_inv in Hr as (n & _ & _ & _ & _ & _ & _ & _ & _ & _ & Hkids). destruct (IH (Hkids _ _ Hbt)) as (k & v & Hin & Hq).
    exists k, v. split; [|done]. apply elem_leaves. right. eauto.
Qed.
Lemma kept_drop key (h h' : heap V) p a pre lf k1 b tc k2 a' lf' : p `prefix_of` key ->
  (forall x, x ∈ kfp (k1 ++ k2) -> h_nodes h' !! x = h_nodes h !! x) -> (forall x q, noded (p ++ pre ++ [b]) tc x q -> q `prefix_of` key) ->
  kept key h h' p (Art a pre lf (k1 ++ (b, tc) :: k2)) (Art a' pre lf' (k1 ++ k2)).
Proof.
  intros Hp Hh Hc. apply kept_kids; [done|]. intros b' t x q n Hbt Hx Hq Hn. apply elem_mid in Hbt as [E|Hbt].
  - injection E as -> ->. destruct Hq. by eapply Hc.
  - exists x, q, n. split; [by eapply noded_kid|]. split; [done|]. split; [|done]. rewrite Hh; [done|]. apply elem_kfp. exists b', t. split; [done|].
    by eapply noded_fp.
Qed.

(** A child is removed; no merge *)
Definition drop_post (s s1 : st V) p (t : art) a pre lf kids' a' (s' : st V) : Prop :=
  upd (fun x => x ∈ fp t) s s' /\ (forall x, x ∈ fp t -> x ∉ lfa lf ++ kfp kids' -> x <> a -> x < nx s -> lv s' !! x = lv s1 !! x) /\
  (forall x, x ∈ kfp kids' -> nd s' !! x = nd s !! x) /\
  exists n' lf', nd s' !! a' = Some n' /\ (n_nch n' = u8 (length kids') /\ n_plen n' = length pre) /\ leafrep (s_h s') (n_leaf n') lf' /\ lf_moved (nx s) lf lf' /\
    (lf <> None \/ kids' <> [] -> del_tree s p t (Art a' pre lf' kids') s').

Lemma NoDup_mid_drop {A} (l1 l2 l3 : list A) : NoDup (l1 ++ l2 ++ l3) -> NoDup (l1 ++ l3).
Proof. rewrite !NoDup_app. intros (H1 & H2 & _ & _ & H3). split_and!; [done| |done]. intros x Hx Hx3. apply (H2 x Hx). apply elem_of_app. by right. Qed.

Lemma drop_kid (s s1 : st V) p a pre lf k1 b tc k2 n idx :
  rep (s_h s) p (Art a pre lf (k1 ++ (b, tc) :: k2)) -> NoDup (fp (Art a pre lf (k1 ++ (b, tc) :: k2))) ->
  nd s !! a = Some n -> findChild n b = Ok (Some (aroot tc), idx) -> upd (fun x => x ∈ fp tc) s s1 ->
  ~ (n_kind n = K4 /\ length (k1 ++ k2) = 1 /\ lf = None) ->
  wp (let! node := ewriteNode a in
      setChild node idx None ;;; eremoveChild node b)
     (drop_post s s1 p (Art a pre lf (k1 ++ (b, tc) :: k2)) a pre lf (k1 ++ k2)) s1.
Proof.
  intros Hr Hnd Hn Hfc HU1 Hnm. pose proof Hr as Hr0. pose proof (rep_fpx _ _ _ Hr) as Hfp.
  set (kids := k1 ++ (b, tc) :: k2) in *. assert (Hne : kids <> []) by (by unfold kids; destruct k1).
  pose proof (fun n => rep_low _ _ _ _ _ _ n Hr) as Hlow. apply rep_inv in Hr as (n0 & Hn0 & Hlt & He & Hpl & Hlf & Hk1 & Hk2 & Hk3 & Hst & Hkids).
  assert (n0 = n) as -> by congruence.
  assert (Hfpk : fp (Art a pre lf kids) = a :: (lfa lf ++ kfp k1) ++ fp tc ++ kfp k2).
  { unfold kids. by rewrite fp_eq, kfp_app, kfp_cons, app_assoc. }
  rewrite Hfpk in Hnd, Hfp. apply NoDup_cons in Hnd as [Hani Hnd].
  assert (Hatc : a ∉ fp tc) by (intros Hx; apply Hani; mem).
  assert (Hn1 : nd s1 !! a = Some n) by (eapply upd_node; [exact HU1|done..]). pose proof (upd_next _ _ _ HU1) as Hnx1.
  eapply wp_use; [apply (ewriteNode_spec s1 a n); [done|done|lia]|]. intros a' s2 (n' & Hn' & Hsame & Ha'lt & Ha' & HU2 & Hlv2).
  pose proof Hsame as (E1 & E2 & E3 & E4 & E5 & E6 & E7). pose proof (upd_next _ _ _ HU2) as Hnx2.
  assert (He' : enc n' (ents k1 ++ (b, aroot tc) :: ents k2)).
  { eapply enc_same; [by apply same_node_arr|]. unfold kids in He. rewrite ents_app in He. exact He. }
  assert (Hout : forall x, x ∈ lfa lf ++ kfp k1 ++ kfp k2 -> x ∉ fp tc /\ x <> a' /\ x < nx s /\ x <> a).
  { intros x Hx. rewrite app_assoc in Hx. assert (Hx' : x ∈ (lfa lf ++ kfp k1) ++ fp tc ++ kfp k2) by (apply elem_mid3; by left).
    assert (Hxlt : x < nx s) by (apply Hfp; by right). assert (x <> a) by (intros ->; done). split_and!; [|lia|done..].
    by apply (mid_notin _ _ _ _ Hnd). }
  assert (Hlf2 : leafrep (s_h s2) (n_leaf n') lf).
  { rewrite E7. eapply upd_leafrep; [exact HU2|eapply upd_leafrep; [exact HU1|exact Hlf|]|apply not_none]. intros x Hx. apply Hout. mem. }
  eapply wp_mono; [apply (rm_spec s2 a' n' (ents k1) b (aroot tc) (ents k2) lf idx)|].
  { split; [done|]. split; [done|]. split; [done|]. split; [by rewrite E4|done]. }
  { rewrite (findChild_same n n'); [done|]. by apply same_node_arr. }
  { intros (F1 & F2 & F3). apply Hnm. split; [congruence|]. split; [|done]. rewrite <- ents_app in F2. unfold ents in F2. by rewrite fmap_length in F2. }
  { rewrite E1. etrans; [by apply Hlow|]. unfold kids. rewrite !app_length. cbn. unfold ents. by rewrite !fmap_length. }
  intros a3 s3 [(n3 & lf3 & Hn3 & HU3 & Ha3 & Ha3lt & He3 & Hh3 & Hs3 & Hlf3 & Hmv & Hni) Hlow3]. specialize (Hlow3 n3 Hn3). rewrite <- ents_app in He3, Hs3.
  pose proof (upd_next _ _ _ HU3) as Hnx3.
  assert (Hlfl : forall x, x ∈ lfa lf3 -> x ∈ lfa lf \/ nx s2 <= x).
  { intros x Hx. destruct lf as [[[la k] v0]|], lf3 as [[[la' k'] v']|]; cbn in Hx; try done; [|by apply elem_of_nil in Hx].
    destruct Hmv as (_ & _ & Hmv). apply elem_of_list_singleton in Hx as ->. destruct Hmv as [->|]; [left; left|by right]. }
  assert (Ha'lf : a' ∉ lfa lf) by (intros Hx; destruct (Hout a') as (_ & ? & _); [mem|done]).
  assert (HU : upd (fun x => x ∈ fp (Art a pre lf kids)) s s3).
  { eapply upd_eq; [|exact HU3|].
    + eapply upd_n; [|exact HU2]. eapply upd_weaken; [exact HU1|]. intros x _ Hx. rewrite Hfpk. mem.
    + destruct Ha' as [->|]; [left|right; lia]. rewrite Hfpk. left. }
  assert (Hoth : forall b' t, (b', t) ∈ k1 ++ k2 -> rep (s_h s3) (p ++ pre ++ [b']) t).
  { intros b' t Hbt'. assert (Hx : forall x, x ∈ fp t -> x ∈ lfa lf ++ kfp k1 ++ kfp k2).
    { intros x Hx. rewrite <- kfp_app. apply elem_of_app. right. apply elem_kfp. eauto. }
    eapply upd_rep; [exact HU3|eapply upd_rep; [exact HU2|eapply upd_rep; [exact HU1|apply Hkids|]|apply not_none]|].
    - unfold kids. apply elem_mid. by right.
    - intros x Hx'. by apply Hout, Hx.
    - intros x Hx' <-. by destruct (Hout a' (Hx _ Hx')) as (_ & ? & _). }
  split; [done|]. split.
  { intros x Hx1 Hx2 Hx3 Hx4. destruct (upd_same _ _ _ HU3 x) as [_ ->]; [lia|lia|]. by rewrite Hlv2. }
  split.
  { intros x Hx. rewrite kfp_app in Hx. destruct (Hout x) as (F1 & F2 & F3 & F4); [apply elem_of_app; by right|].
    rewrite (upd_nodes _ _ _ x HU3) by (lia || by intros <-). rewrite (upd_nodes _ _ _ x HU2) by (lia || by intros []). by eapply upd_nodes. }
  exists n3, lf3. split; [done|]. split.
  { split; [rewrite (enc_nch _ _ He3); unfold ents; by rewrite fmap_length|]. destruct Hh3 as (-> & _). rewrite E2. by apply Hk1. }
  split; [done|].
  split; [eapply (lf_moved_trans (nx s) (nx s2)); [lia|apply lf_moved_refl|done]|]. intros Hsome.
  assert (Hkin : forall x, x ∈ (k1 ++ k2).*1 -> x ∈ kids.*1).
  { intros x Hx. unfold kids. rewrite fmap_app in *. cbn. apply elem_mid. by right. }
  destruct Hh3 as (Hh1 & Hh2 & Hh3).
  split; [|split].
  - apply (rep_node _ _ _ _ _ _ n3); [..|rewrite <- ents_app in Hlow3; unfold ents in Hlow3; by rewrite fmap_length in Hlow3]; try done.
    + intros Hne'. destruct (Hk1 Hne) as (F1 & F2 & F3). rewrite Hh1, E2. split; [done|]. split; [|done].
      rewrite E2, F1, E4 in Hh3. by rewrite Hh3.
    + intros Hnil. destruct Hsome as [Hsome|]; [|done]. destruct lf as [[[la k] v0]|]; [|done]. destruct lf3 as [[[la' k'] v']|]; [|done].
      destruct Hmv as (-> & -> & _). exists la', k, v0. split; [done|]. destruct (Hk3 _ _ _ eq_refl) as [_ Hkk]. destruct (Hkk Hne) as [-> _]. by exists (pre ++ [dollar]).
    + intros la' k' v' ->. destruct lf as [[[la k] v0]|]; [|done]. destruct Hmv as (-> & -> & _). destruct (Hk3 _ _ _ eq_refl) as [F1 F2].
      split; [done|]. intros _. destruct (F2 Hne) as [F3 F4]. split; [done|]. intros Hx. by apply F4, Hkin.
    + intros c Hc. destruct (Hs3 c Hc) as (b' & Hb'). apply elem_ents in Hb' as (t & <- & Hbt) || apply elem_ents in Hb' as (t & Hbt & <-). exists b'.
      split; [apply elem_of_list_fmap; by exists (b', t)|]. by apply rep_leafok, Hoth.
  - rewrite fp_eq, kfp_app. apply NoDup_mid_drop in Hnd.
    assert (Hl3 : forall x, x ∈ kfp k1 ++ kfp k2 -> x ∉ lfa lf3 /\ x <> a3).
    { intros x Hx. destruct (Hout x) as (F1 & F2 & F3 & F4); [apply elem_of_app; by right|]. split; [|lia]. intros Hx3.
      destruct (Hlfl _ Hx3) as [Hx4|]; [|lia]. rewrite <- app_assoc, NoDup_app in Hnd. destruct Hnd as (_ & Hnd & _). by apply (Hnd x). }
    apply NoDup_cons. split.
    + intros Hx. apply elem_of_app in Hx as [Hx|Hx]; [by apply Hni|]. by apply Hl3 in Hx as [_ ?].
    + rewrite <- app_assoc, NoDup_app in Hnd. destruct Hnd as (_ & _ & Hnd). apply NoDup_app. split; [|split; [|done]].
      * destruct lf3 as [[[la' k'] v']|]; cbn; [apply NoDup_singleton|apply NoDup_nil_2].
      * intros x Hx Hx2. by apply Hl3 in Hx2 as [? _].
  - intros x. rewrite Hfpk, fp_eq, kfp_app. rewrite !elem_of_cons, !elem_of_app.
    intros [->|[Hx|[Hx|Hx]]]; [| |tauto|tauto].
    + destruct Ha3 as [->|]; [|right; lia]. destruct Ha' as [->|]; [tauto|right; lia].
    + destruct (Hlfl _ Hx); [tauto|right; lia].
Qed.

(** A child is removed; the node is merged with the only other child (node_4.go / removeChild4) *)
Lemma merge_kid (s s1 : st V) p a pre k1 b tc k2 n idx b2 t2 :
  rep (s_h s) p (Art a pre None (k1 ++ (b, tc) :: k2)) -> NoDup (fp (Art a pre None (k1 ++ (b, tc) :: k2))) ->
  nd s !! a = Some n -> findChild n b = Ok (Some (aroot tc), idx) -> upd (fun x => x ∈ fp tc) s s1 ->
  n_kind n = K4 -> k1 ++ k2 = [(b2, t2)] -> length (match t2 with Art _ _ _ kids => kids end) < 256 ->
  wp (let! node := ewriteNode a in
      setChild node idx None ;;; eremoveChild node b)
     (fun a' s' => upd (fun x => x ∈ fp (Art a pre None (k1 ++ (b, tc) :: k2))) s s' /\
        (forall x, x ∈ fp tc -> lv s' !! x = lv s1 !! x) /\
        exists n' t', nd s' !! a' = Some n' /\ a' = aroot t' /\ (n_nch n' = 0 -> n_leaf n' <> None) /\
          del_tree s p (Art a pre None (k1 ++ (b, tc) :: k2)) t' s' /\ leaves t' = leaves t2 /\
          forall key, p `prefix_of` key -> (forall x q, noded (p ++ pre ++ [b]) tc x q -> q `prefix_of` key) ->
            kept key (s_h s) (s_h s') p (Art a pre None (k1 ++ (b, tc) :: k2)) t' /\ fewer p (Art a pre None (k1 ++ (b, tc) :: k2)) t') s1.
Proof.
  intros Hr Hnd Hn Hfc HU1 Hkind Hk12 Hfull2. pose proof Hr as Hr0. pose proof (rep_fpx _ _ _ Hr) as Hfp.
  set (kids := k1 ++ (b, tc) :: k2) in *. assert (Hne : kids <> []) by (by unfold kids; destruct k1).
  pose proof (fun n => rep_low _ _ _ _ _ _ n Hr) as Hlow. apply rep_inv in Hr as (n0 & Hn0 & Hlt & He & Hpl & Hlf & Hk1 & Hk2 & Hk3 & Hst & Hkids).
  assert (n0 = n) as -> by congruence. destruct (Hk1 Hne) as (Hplen & Hpart & Hndp).
  assert (Hfpk : fp (Art a pre None kids) = a :: kfp k1 ++ fp tc ++ kfp k2).
  { unfold kids. by rewrite fp_eq, kfp_app, kfp_cons. }
  rewrite Hfpk in Hnd, Hfp. apply NoDup_cons in Hnd as [Hani Hnd].
  assert (Hatc : a ∉ fp tc) by (intros Hx; apply Hani; mem).
  assert (Hn1 : nd s1 !! a = Some n) by (eapply upd_node; [exact HU1|done..]). pose proof (upd_next _ _ _ HU1) as Hnx1.
  eapply wp_use; [apply (ewriteNode_spec s1 a n); [done|done|lia]|]. intros a' s2 (n' & Hn' & Hsame & Ha'lt & Ha' & HU2 & Hlv2).
  pose proof Hsame as (E1 & E2 & E3 & E4 & E5 & E6 & E7). pose proof (upd_next _ _ _ HU2) as Hnx2.
  assert (He' : enc n' (ents k1 ++ (b, aroot tc) :: ents k2)).
  { eapply enc_same; [by apply same_node_arr|]. unfold kids in He. rewrite ents_app in He. exact He. }
  assert (Hkf : kfp k1 ++ kfp k2 = fp t2) by (rewrite <- kfp_app, Hk12; cbn; by rewrite app_nil_r).
  assert (Hout : forall x, x ∈ fp t2 -> x ∉ fp tc /\ x <> a' /\ x < nx s /\ x <> a).
  { intros x Hx. rewrite <- Hkf in Hx. assert (Hx' : x ∈ kfp k1 ++ fp tc ++ kfp k2) by (apply elem_mid3; by left).
    assert (Hxlt : x < nx s) by (apply Hfp; by right). assert (x <> a) by (intros ->; done). split_and!; [|lia|done..].
    by apply (mid_notin _ _ _ _ Hnd). }
  assert (Hr2s : rep (s_h s) (p ++ pre ++ [b2]) t2).
  { apply Hkids. unfold kids. apply elem_mid. right. rewrite Hk12. left. }
  assert (Hr2 : rep (s_h s2) (p ++ pre ++ [b2]) t2).
  { eapply upd_rep; [exact HU2|eapply upd_rep; [exact HU1|exact Hr2s|]|apply not_none]. intros x Hx. by apply Hout. }
  assert (Hnd2 : NoDup (fp t2)) by (rewrite <- Hkf; by eapply NoDup_mid_drop).
  destruct (enc_set _ _ _ _ _ He') as (idx' & Hfc' & Hil & Hci & His & _ & _ & _).
  rewrite (findChild_same n n') in Hfc' by by apply same_node_arr. assert (idx' = idx) as -> by congruence.
  assert (Hpre2 : add_pre s2 a' n' (ents k1 ++ (b, aroot tc) :: ents k2) None).
  { split; [done|]. split; [done|]. split; [done|]. split; [by rewrite E4|]. cbn. by rewrite E7. }
  destruct (rm_sorted_here s2 a' n' _ b _ _ None idx Hpre2) as (st0 & K & C & E & He3 & Hpost).
  { by rewrite E1, Hkind. } { apply His. by rewrite E1, Hkind. }
  clear Hpost. rewrite <- ents_app, Hk12 in He3, E. cbn [ents fmap list_fmap length] in He3, E. change (ents [(b2, t2)]) with [(b2, aroot t2)] in *. cbn [length] in E, He3.
  set (n3 := set_arr n' K C 1) in *.
  apply wp_bind. eapply wp_setChild; [exact Hn'| |].
  { unfold setChildN. by rewrite (proj2 (Nat.ltb_lt _ _)). }
  set (n2a := set_children n' _) in *. set (s2a := stN s2 a' n2a).
  assert (Hn2a : nd s2a !! a' = Some n2a) by (cbn; by rewrite lookup_insert).
  unfold eremoveChild. apply wp_bind. eapply wp_loadN; [exact Hn2a|]. change (n_kind n2a) with (n_kind n'). rewrite E1, Hkind.
  unfold eremoveChild4. apply wp_bind. eapply wp_loadN; [exact Hn2a|]. apply wp_bind. eapply wp_lift; [exact E|]. cbn beta iota.
  apply wp_bind. eapply wp_loadN; [exact Hn2a|]. apply wp_bind, wp_storeN.
  change (n_ch n2a) with (n_ch n3). rewrite set_ch_same. set (s3 := stN s2a a' n3).
  assert (Hn3 : nd s3 !! a' = Some n3) by (cbn; by rewrite lookup_insert).
  apply wp_bind. eapply wp_loadN; [exact Hn3|].
  change (n_leaf n3) with (n_leaf n'). rewrite E7. cbn in Hlf. rewrite Hlf. cbn [n_nch n3 set_arr set_nch Nat.eqb andb].
  pose proof He3 as [_ _ _ _ _ _ Hsh]. change (n_kind n3) with (n_kind n') in Hsh. rewrite E1, Hkind in Hsh. cbn in Hsh. destruct Hsh as [Hsk Hsc].
  assert (Hk0 : K !! 0 = Some b2) by (destruct K as [|x K]; cbn in *; congruence).
  assert (Hc0 : C !! 0 = Some (Some (aroot t2))) by (destruct C as [|x C]; cbn in *; congruence).
  assert (HU3 : upd (eq a') s2 s3).
  { eapply (upd_stN _ _ _ _ _ n2a); [eapply (upd_stN _ _ _ _ _ n'); [apply upd_refl|exact Hn'|]|exact Hn2a|]; right; (split; [done|]); by left. }
  apply wp_bind. eapply wp_lift.
  { unfold getChild. change (n_kind n3) with (n_kind n'). rewrite E1, Hkind. change (n_children n3) with C. by rewrite Hc0. }
  assert (Hr3 : rep (s_h s3) (p ++ pre ++ [b2]) t2).
  { eapply upd_rep; [exact HU3|exact Hr2|]. intros x Hx <-. by destruct (Hout a' Hx) as (_ & ? & _). }
  destruct t2 as [c2 pre2 lf2 kids2]. cbn [aroot] in *. pose proof Hr3 as Hr30.
  pose proof (fun n => rep_low _ _ _ _ _ _ n Hr3) as Hmlow. apply rep_inv in Hr3 as (m & Hm & Hmlt & Hme & Hmpl & Hmlf & Hmk1 & Hmk2 & Hmk3 & Hmst & Hmkids).
  apply wp_bind. eapply wp_mono; [by apply (ewriteNode_ch s3 c2 m)|]. intros nr s4 (m' & Hm' & Hmsame & Hnrlt & Hnr & HU4 & Hlv4 & Hmch).
  pose proof Hmsame as (G1 & G2 & G3 & G4 & G5 & G6 & G7). pose proof (upd_next _ _ _ HU4) as Hnx4. pose proof (upd_next _ _ _ HU3) as Hnx3.
  assert (Hn4 : nd s4 !! a' = Some n3) by (eapply upd_node; [exact HU4|done|cbn; lia|by intros []]).
  assert (Hc2 : c2 ∈ fp (Art c2 pre2 lf2 kids2)) by (rewrite fp_eq; left).
  assert (Hc2a : c2 <> a') by (by destruct (Hout c2 Hc2) as (_ & ? & _)).
  assert (Hnx32 : nx s3 = nx s2) by done.
  assert (Hnra : nr <> a') by lia.
  apply wp_bind. eapply wp_loadN; [exact Hn4|]. apply wp_bind. eapply wp_loadN; [exact Hm'|].
  destruct (mergePrefix_spec n3 m' pre b2) as (part & P & EM & Hpl1 & Hpl2 & HPX).
  { change (n_partial n3) with (n_partial n'). by rewrite E4. }
  { by rewrite G4. }
  { change (n_plen n3) with (n_plen n'). by rewrite E2. }
  { change (n_partial n3) with (n_partial n'). by rewrite E4. }
  { unfold getKeyAtIdx. change (n_kind n3) with (n_kind n'). rewrite E1, Hkind. change (n_keys n3) with K. by rewrite Hk0. }
  apply wp_bind. eapply wp_lift; [exact EM|]. cbn beta iota. apply wp_bind, wp_storeN. apply wp_bind, wp_storeN. apply wp_ret.
  set (n5 := set_partial n3 part). set (s5 := stN s4 a' n5). set (m6 := set_plen _ _). set (s6 := stN s5 nr m6).
  assert (Hm5 : nd s5 !! nr = Some m') by (cbn; by rewrite lookup_insert_ne).
  assert (HU6 : upd (fun x => x = a' \/ x = c2) s2 s6).
  { eapply (upd_stN _ _ _ _ _ m'); [eapply (upd_stN _ _ _ _ _ n3); [eapply upd_n; [eapply upd_weaken; [exact HU3|]|exact HU4]|exact Hn4|]|exact Hm5|].
    - intros x _ <-. by left.
    - right. split; [by left|]. by left.
    - destruct Hnr as [->|]; [right|left; lia]. split; [by right|]. by left. }
  assert (HUf : upd (fun x => x ∈ fp (Art a pre None kids)) s s6).
  { eapply upd_trans; [eapply upd_n; [eapply upd_weaken; [exact HU1|]|exact HU2]|exact HU6|].
    - intros x _ Hx. rewrite Hfpk. mem.
    - intros x Hx [->| ->]; rewrite Hfpk; [destruct Ha' as [->|]; [left|lia]|right]. apply elem_mid3. left. by rewrite Hkf. }
  split; [done|]. split.
  { intros x Hx. cbn. rewrite Hlv4. cbn. by rewrite Hlv2. }
  exists m6, (Art nr (pre ++ [b2] ++ pre2) lf2 kids2). split; [cbn; by rewrite lookup_insert|]. split; [done|].
  assert (Hk36 : forall b t, (b, t) ∈ kids2 -> rep (s_h s6) ((p ++ pre ++ [b2]) ++ pre2 ++ [b]) t).
  { intros b' t Hbt. eapply upd_rep; [exact HU6| |].
    - apply rep_inv in Hr2 as (m2 & _ & _ & _ & _ & _ & _ & _ & _ & _ & Hmk). by apply Hmk.
    - intros x Hx. assert (Hxk : x ∈ kfp kids2) by (apply elem_kfp; eauto).
      destruct (Hout x) as (F1 & F2 & F3 & F4); [rewrite fp_eq; mem|].
      intros [->| ->]; [done|]. rewrite fp_eq in Hnd2. apply NoDup_cons in Hnd2 as [Hnd2 _]. apply Hnd2. mem. }
  assert (Hlf6 : leafrep (s_h s6) (n_leaf m6) lf2).
  { change (n_leaf m6) with (n_leaf m'). rewrite G7. eapply upd_leafrep; [exact HU6| |].
    - apply rep_inv in Hr2 as (m2 & Hm2 & _ & _ & _ & Hmm & _).
      assert (m2 = m) as ->; [|done]. assert (nd s3 !! c2 = Some m2); [|congruence]. eapply upd_node; [exact HU3|done| |].
      + specialize (Hout c2 Hc2). lia.
      + by intros <-.
    - intros x Hx. destruct (Hout x) as (F1 & F2 & F3 & F4); [rewrite fp_eq; mem|].
      intros [->| ->]; [done|]. rewrite fp_eq in Hnd2. apply NoDup_cons in Hnd2 as [Hnd2 _]. apply Hnd2. mem. }
  split.
  { cbn. rewrite G3, G7, (enc_nch _ _ Hme). unfold ents. rewrite fmap_length. rewrite u8_small by done.
    intros Hz. destruct kids2; [|done]. destruct (Hmk2 eq_refl) as (la & k & v & -> & _). destruct Hmlf as (Hml & _). by rewrite Hml. }
  assert (Hpre' : forall X, p ++ (pre ++ [b2] ++ pre2) ++ X = (p ++ pre ++ [b2]) ++ pre2 ++ X) by (intros X; by rewrite <- !app_assoc).
  split; [split; [|split]|split; [by rewrite !leaves_eq|]].
  - apply (rep_node _ _ _ _ _ _ m6); [..|change (n_kind m6) with (n_kind m'); rewrite G1; by apply Hmlow]; try done.
    + cbn. by rewrite lookup_insert.
    + eapply enc_same; [|exact Hme]. by apply same_node_arr in Hmsame.
    + intros Hne2. destruct (Hmk1 Hne2) as (F1 & F2 & F3). split.
      * cbn. rewrite G2, F1. change (n_plen n3) with (n_plen n'). rewrite E2, Hplen, !app_length. cbn. lia.
      * split; [|by rewrite <- (app_nil_r (p ++ _)), <- app_assoc, Hpre', app_nil_r]. cbn. apply HPX; [by rewrite G2|]. by rewrite G4.
    + intros Hz. destruct (Hmk2 Hz) as (la & k & v & E0 & Hpk). exists la, k, v. split; [done|]. etrans; [|exact Hpk]. by exists (pre ++ [b2]).
    + intros la k v E0. destruct (Hmk3 _ _ _ E0) as [F1 F2]. split; [done|]. intros Hne2. destruct (F2 Hne2) as [F3 F4]. split; [|done].
      by rewrite Hpre'.
    + intros c Hc. rewrite (stale_same m m6) in Hc by by apply same_node_arr in Hmsame. destruct (Hmst c Hc) as (b' & Hb' & Hok).
      exists b'. split; [done|]. rewrite Hpre'. assert (HU36 : upd (fun x => x = a' \/ x = c2) s3 s6).
      { eapply (upd_stN _ _ _ _ _ m'); [eapply (upd_stN _ _ _ _ _ n3); [eapply upd_any; exact HU4|exact Hn4|]|exact Hm5|].
        - right. split; [by left|]. by left.
        - destruct Hnr as [->|]; [right|left; lia]. split; [by right|]. by left. }
      by apply (upd_ext _ _ _ HU36).
    + intros b' t Hbt. rewrite Hpre'. by apply Hk36.
  - rewrite fp_eq in Hnd2 |- *. apply NoDup_cons in Hnd2 as [Hc2n Hnd2]. apply NoDup_cons. split; [|done]. intros Hx.
    destruct Hnr as [->|Hnr]; [done|]. destruct (Hout nr) as (_ & _ & ? & _); [rewrite fp_eq; by right|lia].
  - intros x. rewrite fp_eq, elem_of_cons. intros [->|Hx].
    + destruct Hnr as [->|]; [|right; lia]. left. rewrite Hfpk. right. apply elem_mid3. left. by rewrite Hkf.
    + left. rewrite Hfpk. right. apply elem_mid3. left. rewrite Hkf, fp_eq. by right.
  - intros key Hpk Hc. split; [|apply thin_kids; intros w Hw; exists b2, (Art c2 pre2 lf2 kids2); split; [unfold kids; apply elem_mid; right; rewrite Hk12; left|];
      apply thin_inv in Hw as [(-> & Hl1 & ->)|(b3 & t3 & Hbt3 & Hw)]; [replace (p ++ pre ++ [b2] ++ pre2) with ((p ++ pre ++ [b2]) ++ pre2) by (by rewrite <- !app_assoc); by apply thin_root|];
      eapply thin_kid; [exact Hbt3|]; by rewrite <- Hpre'].
    apply kept_kids; [done|]. intros b' t x q n1' Hbt Hx Hq Hnx. unfold kids in Hbt. apply elem_mid in Hbt as [E0|Hbt].
    { injection E0 as -> ->. destruct Hq. by eapply Hc. }
    rewrite Hk12 in Hbt. apply elem_of_list_singleton in Hbt. injection Hbt as -> ->.
    apply noded_inv in Hx as [[-> ->]|(b3 & t3 & Hbt3 & Hx)].
    + exists nr, p, m6. split; [constructor|]. split; [by apply prefix_app_r|]. split; [cbn; by rewrite lookup_insert|].
      change (n_ch m6) with (n_ch m'). rewrite Hmch. f_equal. destruct (Hout c2 Hc2) as (F1 & F2 & F3 & F4).
      assert (E0 : nd s3 !! c2 = nd s !! c2); [|congruence].
      rewrite (upd_nodes _ _ _ c2 HU3) by (lia || by intros <-). rewrite (upd_nodes _ _ _ c2 HU2) by (lia || by intros []). by eapply upd_nodes.
    + exists x, q, n1'. split; [eapply (noded_kid _ _ _ _ _ b3 t3); [done|by rewrite Hpre']|]. split; [done|]. split; [|done].
      assert (Hxk : x ∈ kfp kids2) by (apply elem_kfp; exists b3, t3; split; [done|by eapply noded_fp]).
      destruct (Hout x) as (F1 & F2 & F3 & F4); [rewrite fp_eq; mem|].
      rewrite (upd_nodes _ _ _ x HU6); [|lia|].
      * rewrite (upd_nodes _ _ _ x HU2) by (lia || by intros []). rewrite (upd_nodes _ _ _ x HU1) by done. done.
      * intros [->| ->]; [done|]. rewrite fp_eq in Hnd2. apply NoDup_cons in Hnd2 as [Hnd2 _]. apply Hnd2. mem.
Qed.
End Delete.
