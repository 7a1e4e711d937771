(** Lookup, minimum and maximum on represented trees. *)
From Verif Require Export Rep.
From stdpp Require Export list.
Local Open Scope nat_scope.

Section Search.
Context {V : Type} `{GoZero V} {D : KeyDom}.
Notation art := (art V).

Lemma checkPrefix_ok partial plen key depth : length partial = maxPrefixLen ->
  checkPrefix partial plen key depth =
  Ok (((plen `min` maxPrefixLen) `min` (length key - depth)) `min` lcp partial (drop depth key)).
Proof. intros Hl. unfold checkPrefix. apply cmp_loop_0; lia. Qed.
Lemma checkPrefix_match partial pre p x : length partial = maxPrefixLen ->
  take (maxPrefixLen `min` length pre) partial = take maxPrefixLen pre ->
  checkPrefix partial (length pre) (p ++ pre ++ x) (length p) = Ok (maxPrefixLen `min` length pre).
Proof.
  intros Hl Ht. rewrite checkPrefix_ok by done. f_equal. rewrite drop_app, !app_length.
  set (m := maxPrefixLen `min` length pre) in *.
  assert (E : lcp (take m partial) (pre ++ x) = m).
  { rewrite Ht. transitivity (length (take maxPrefixLen pre)); [|rewrite take_length; done].
    apply lcp_full. exists (drop maxPrefixLen pre ++ x). by rewrite app_assoc, take_drop. }
  rewrite lcp_take_l' in E. lia.
Qed.

Lemma ownLeaf_spec (h : heap V) key n lf : leafrep h (n_leaf n) lf ->
  ownLeaf h key n = Ok (match lf with Some (la, k, v) => if leafMatches k key then Some la else None | None => None end).
Proof.
  intros Hl. unfold ownLeaf. destruct lf as [[[la k] v]|]; cbn in Hl.
  - destruct Hl as (-> & _ & l & -> & -> & _). done.
  - by rewrite Hl.
Qed.
Lemma scanChildren_none (h : heap V) key chs :
  (forall c, Some c ∈ chs -> leafok h c (fun k => k <> key)) -> scanChildren h key chs = Ok None.
Proof.
  induction chs as [|[c|] chs IH]; intros Hc; cbn; [done| |apply IH; intros; apply Hc; by right].
  destruct (Hc c ltac:(left)) as (_ & n & -> & Hl). destruct (n_leaf n) as [la|].
  - destruct Hl as (_ & l & -> & Hk). apply leafMatches_false in Hk as ->. apply IH. intros; apply Hc; by right.
  - apply IH. intros; apply Hc; by right.
Qed.

Lemma searchExit_spec (h : heap V) p a pre lf kids n key : rep h p (Art a pre lf kids) -> h_nodes h !! a = Some n ->
  (forall b, b ∈ kids.*1 -> ~ (p ++ pre ++ [b]) `prefix_of` key) ->
  exists r, searchExit h key a n = Ok r /\
    match r with
    | Found la => exists l, h_leaves h !! la = Some l /\ (key, l_val l) ∈ leaves (Art a pre lf kids)
    | Missing a' => a' = a /\ forall v, (key, v) ∉ leaves (Art a pre lf kids)
    end.
Proof.
  intros Hr Hn Hnk. unfold searchExit. pose proof Hr as Hr0.
  apply rep_inv in Hr as (n' & Hn' & Hlt & He & Hpl & Hlf & Hk1 & Hk2 & Hk3 & Hst & Hkids).
  assert (n' = n) as -> by congruence.
  rewrite (ownLeaf_spec h key n lf Hlf). cbn [obind].
  assert (Hscan : scanChildren h key (n_children n) = Ok None).
  { apply scanChildren_none. intros c Hc. destruct (rep_children _ _ _ _ _ _ _ _ Hr0 Hn Hc) as (b & Hb & Hok).
    eapply leafok_weaken; [|exact Hok]. cbn. intros k Hp ->. by eapply Hnk. }
  assert (Hmiss : (forall la v, lf <> Some (la, key, v)) -> forall v, (key, v) ∉ leaves (Art a pre lf kids)).
  { intros Hno v Hin. apply elem_leaves in Hin as [[la ->]|(b & t & Hbt & Hin)]; [by eapply Hno|].
    eapply (Hnk b); [apply elem_of_list_fmap; by exists (b, t)|]. by eapply rep_leaves_kid. }
  destruct lf as [[[la k] v]|].
  - destruct (leafMatches k key) eqn:Em.
    + apply leafMatches_true in Em as ->. destruct Hlf as (_ & _ & l & Hl & Hlk & Hlv). eexists. split; [done|].
      exists l. split; [done|]. apply elem_leaves. left. exists la. by rewrite Hlv.
    + rewrite Hscan. cbn. eexists. split; [done|]. split; [done|]. apply Hmiss. intros la' v' [= -> -> ->].
      apply leafMatches_false in Em. done.
  - rewrite Hscan. cbn. eexists. split; [done|]. split; [done|]. by apply Hmiss.
Qed.

Lemma stale_nil_children n : enc n [] -> stale n = [] -> forall c, Some c ∉ n_children n.
Proof. intros He Hs c Hc. destruct (enc_children_elem _ _ _ He Hc) as [Hi|Hi]; [|rewrite Hs in Hi]; by apply elem_of_nil in Hi. Qed.

(** Get is correct on represented trees. *)
Lemma search_spec (h : heap V) key t : is_bytes key -> forall fuel p, rep h p t -> length p <= length key -> length key - length p < fuel ->
  exists r, search fuel h (aroot t) key (length p) = Ok r /\
    match r with
    | Found la => exists l, h_leaves h !! la = Some l /\ (key, l_val l) ∈ leaves t
    | Missing a => (exists n, h_nodes h !! a = Some n) /\ a ∈ fp t /\ forall v, (key, v) ∉ leaves t
    end.
Proof.
  intros Hkb. induction t as [a pre lf kids IH] using art_ind'. intros fuel p Hr Hpk Hf.
  destruct fuel as [|fuel]; [lia|]. cbn [search aroot]. pose proof Hr as Hr0.
  apply rep_inv in Hr as (n & Hn & Hlt & He & Hpl & Hlf & Hk1 & Hk2 & Hk3 & Hst & Hkids).
  rewrite Hn, (rep_isLeaf _ _ _ _ _ _ _ Hr0 Hn).
  assert (Hexit : (forall b, b ∈ kids.*1 -> ~ (p ++ pre ++ [b]) `prefix_of` key) ->
    exists r, searchExit h key a n = Ok r /\
    match r with
    | Found la => exists l, h_leaves h !! la = Some l /\ (key, l_val l) ∈ leaves (Art a pre lf kids)
    | Missing a' => (exists n, h_nodes h !! a' = Some n) /\ a' ∈ fp (Art a pre lf kids) /\ forall v, (key, v) ∉ leaves (Art a pre lf kids)
    end).
  { intros Hq. destruct (searchExit_spec h p a pre lf kids n key Hr0 Hn Hq) as (r & -> & Hres). exists r. split; [done|].
    destruct r as [la|a']; [done|]. destruct Hres as [-> Hres]. split; [by exists n|]. split; [exact (fp_aroot (Art a pre lf kids))|done]. }
  destruct (decide (kids = [])) as [->|Hne].
  - rewrite bool_decide_true by done. rewrite (ownLeaf_spec h key n lf Hlf). cbn [obind].
    destruct (Hk2 eq_refl) as (la & k & v & -> & Hp). destruct (leafMatches k key) eqn:Em.
    + apply leafMatches_true in Em as ->. destruct Hlf as (_ & _ & l & Hl & _ & Hlv). eexists. split; [done|].
      exists l. split; [done|]. apply elem_leaves. left. exists la. by rewrite Hlv.
    + assert (Hq := Hexit (fun b Hb _ => not_elem_of_nil b Hb)).
      assert (Hfc : forall c, c < 256 -> findChild n c = Ok (None, 0)).
      { intros c Hc. by eapply findChild_None. }
      destruct (Nat.ltb 0 (n_plen n)); cbn [andb].
      * rewrite checkPrefix_ok by done. cbn [obind].
        destruct (Nat.eqb _ (maxPrefixLen `min` n_plen n)); cbn [negb]; [|done].
        destruct (key !! (length p + n_plen n)) as [c|] eqn:Ec; [|done].
        rewrite Hfc; [done|]. unfold is_bytes in Hkb. rewrite Forall_forall in Hkb. by eapply Hkb, elem_of_list_lookup_2.
      * cbn [obind]. destruct (key !! (length p + n_plen n)) as [c|] eqn:Ec; [|done].
        rewrite Hfc; [done|]. unfold is_bytes in Hkb. rewrite Forall_forall in Hkb. by eapply Hkb, elem_of_list_lookup_2.
  - rewrite bool_decide_false by done. cbn [obind]. destruct (Hk1 Hne) as (Hpn & Hpt & Hnd).
    assert (Hpc : exists r, (if Nat.ltb 0 (n_plen n) then checkPrefix (n_partial n) (n_plen n) key (length p) else Ok 0) = Ok r /\
              ((p ++ pre) `prefix_of` key -> Nat.ltb 0 (n_plen n) && negb (Nat.eqb r (maxPrefixLen `min` n_plen n)) = false)).
    { destruct (Nat.ltb_spec 0 (n_plen n)).
      - rewrite checkPrefix_ok by done. eexists. split; [done|]. intros [x ->].
        cbn [andb].
        assert (Hck : Ok (n_plen n `min` maxPrefixLen `min` (length ((p ++ pre) ++ x) - length p) `min` lcp (n_partial n) (drop (length p) ((p ++ pre) ++ x)))
                = Ok (maxPrefixLen `min` length pre)).
        { rewrite <- checkPrefix_ok by done. rewrite <- app_assoc, Hpn. by apply checkPrefix_match. }
        injection Hck as Hck. rewrite Hck. by rewrite Hpn, Nat.eqb_refl.
      - exists 0. done. }
    destruct Hpc as (r & -> & Hrr). cbn [obind].
    destruct (Nat.ltb 0 (n_plen n) && negb (Nat.eqb r (maxPrefixLen `min` n_plen n))) eqn:Eb.
    { apply Hexit. intros b Hb Hp. assert (false = true); [|done]. rewrite <- Hrr; [done|].
      destruct Hp as [x ->]. exists ([b] ++ x). by rewrite <- !app_assoc. }
    rewrite Hpn. destruct (key !! (length p + length pre)) as [c|] eqn:Ec.
    2:{ apply Hexit. intros b Hb [x ->]. apply lookup_ge_None in Ec. rewrite !app_length in Ec. cbn in Ec. lia. }
    assert (Hcb : c < 256).
    { unfold is_bytes in Hkb. rewrite Forall_forall in Hkb. by eapply Hkb, elem_of_list_lookup_2. }
    assert (Hbc : forall b, (p ++ pre ++ [b]) `prefix_of` key -> b = c).
    { intros b [x ->]. rewrite <- !app_assoc in Ec. rewrite lookup_app_r in Ec by lia. rewrite lookup_app_r in Ec by lia.
      replace (length p + length pre - length p - length pre) with 0 in Ec by lia. cbn in Ec. congruence. }
    destruct (alook (ents kids) c) as [ca|] eqn:Eal.
    + destruct (alook_split _ _ _ Eal) as (l1 & l2 & El). destruct (enc_set n l1 c ca l2) as (idx & Hfc & _); [by rewrite <- El|].
      rewrite Hfc. cbn [obind]. apply ents_split_cons in El as (k1 & t & k2 & -> & _ & _ & Ert).
      assert (Hct : (c, t) ∈ k1 ++ (c, t) :: k2) by (apply elem_of_app; right; left).
      apply lookup_lt_Some in Ec as Hlc.
      destruct (IH c t Hct fuel (p ++ pre ++ [c]) (Hkids c t Hct)) as (r' & Hs & Hres).
      { rewrite !app_length. cbn. lia. }
      { rewrite !app_length. cbn. lia. }
      exists r'. rewrite !app_length in Hs. cbn in Hs. rewrite Nat.add_assoc, Ert in Hs. rewrite Hs. split; [done|].
      destruct r' as [la|a'].
      * destruct Hres as (l & Hl & Hin). exists l. split; [done|]. apply elem_leaves. right. eauto.
      * destruct Hres as ([m Hm] & Hfp & Hres). split; [by exists m|]. split.
        { rewrite fp_eq. apply elem_of_cons. right. apply elem_of_app. right. apply elem_kfp. eauto. }
        intros v Hin. apply elem_leaves in Hin as [[la El]|(b & t' & Hbt & Hin)].
        -- destruct (Hk3 _ _ _ El) as [_ Hk]. destruct (Hk Hne) as [Hkey Hd]. apply Hd.
           rewrite (Hbc dollar). 2:{ rewrite <- Hkey. done. }
           apply elem_of_list_fmap. by exists (c, t).
        -- assert (b = c). { apply Hbc. by eapply rep_leaves_kid. } subst b.
           rewrite (kids_unique _ c t' t (rep_sorted _ _ _ _ _ _ Hr0) Hbt Hct) in Hin. by eapply Hres.
    + rewrite (findChild_None n _ c He Hcb Eal). cbn [obind]. apply Hexit.
      intros b Hb Hp. rewrite (Hbc b Hp) in Hb. apply alook_None in Eal. by rewrite ents_fst in Eal.
Qed.

(** ** Minimum and maximum *)
Lemma minimum_node fuel (h : heap V) p t : rep h p t -> length (fp t) <= fuel ->
  exists la l k v L, minimum fuel h (Some (aroot t)) = Ok (Some la) /\ h_leaves h !! la = Some l /\ l_key l = k /\ l_val l = v /\
    leaves t = (k, v) :: L.
Proof.
  revert p t. induction fuel as [|fuel IH]; intros p [a pre lf kids] Hr Hf; [rewrite fp_eq in Hf; cbn in Hf; lia|].
  cbn [minimum aroot]. pose proof Hr as Hr0.
  apply rep_inv in Hr as (n & Hn & Hlt & He & Hpl & Hlf & Hk1 & Hk2 & Hk3 & Hst & Hkids).
  rewrite Hn. assert (Hl : forall la k v, lf = Some (la, k, v) ->
      (if isLeafN n then Ok (n_leaf n) else match n_leaf n with Some l => Ok (Some l) | None => let? c := minChild n in match c with None => Ok None | Some _ => minimum fuel h c end end) = Ok (Some la)).
  { intros la k v ->. destruct Hlf as (-> & _). by destruct (isLeafN n). }
  destruct lf as [[[la k] v]|].
  - rewrite (Hl _ _ _ eq_refl). destruct Hlf as (_ & _ & l & Hl1 & Hl2 & Hl3). exists la, l, k, v. eexists. split_and!; [done..|].
    rewrite leaves_eq. reflexivity.
  - rewrite (rep_isLeaf _ _ _ _ _ _ _ Hr0 Hn). cbn in Hlf. rewrite Hlf.
    destruct kids as [|[b t] kids]; [by destruct (Hk2 eq_refl) as (? & ? & ? & ? & _)|].
    rewrite bool_decide_false by done. rewrite (enc_minChild n b (aroot t) (ents kids)) by exact He. cbn [obind].
    destruct (IH _ t (Hkids b t ltac:(left))) as (la & l & k & v & L & E & H1 & H2 & H3 & H4).
    { rewrite fp_eq, kfp_cons in Hf. cbn in Hf. rewrite app_length in Hf. lia. }
    exists la, l, k, v. eexists. split_and!; [done..|]. rewrite leaves_eq, kleaves_cons, H4. reflexivity.
Qed.
Lemma maximum_node fuel (h : heap V) p t : rep h p t -> length (fp t) <= fuel ->
  exists la l k v L, maximum fuel h (Some (aroot t)) = Ok (Some la) /\ h_leaves h !! la = Some l /\ l_key l = k /\ l_val l = v /\
    leaves t = L ++ [(k, v)].
Proof.
  revert p t. induction fuel as [|fuel IH]; intros p [a pre lf kids] Hr Hf; [rewrite fp_eq in Hf; cbn in Hf; lia|].
  cbn [maximum aroot]. pose proof Hr as Hr0.
  apply rep_inv in Hr as (n & Hn & Hlt & He & Hpl & Hlf & Hk1 & Hk2 & Hk3 & Hst & Hkids).
  rewrite Hn, (rep_isLeaf _ _ _ _ _ _ _ Hr0 Hn). destruct kids as [|kd kids _] using rev_ind.
  - rewrite bool_decide_true by done. destruct (Hk2 eq_refl) as (la & k & v & -> & _).
    destruct Hlf as (-> & _ & l & Hl1 & Hl2 & Hl3). exists la, l, k, v, []. split_and!; done.
  - rewrite bool_decide_false by (by destruct kids). destruct kd as [b t]. rewrite ents_app in He.
    rewrite (enc_maxChild n b (aroot t) (ents kids)) by exact He. cbn [obind].
    destruct (IH _ t (Hkids b t ltac:(apply elem_of_app; right; left))) as (la & l & k & v & L & E & H1 & H2 & H3 & H4).
    { rewrite fp_eq, kfp_app, kfp_cons in Hf. cbn in Hf. rewrite !app_length in Hf. lia. }
    exists la, l, k, v. eexists. split_and!; [done..|]. rewrite leaves_eq, kleaves_app, kleaves_cons, H4.
    change (kleaves []) with (@nil (bytes * V)). rewrite app_nil_r, !app_assoc. done.
Qed.
Lemma fp_bound (h : heap V) p t : rep h p t -> NoDup (fp t) -> length (fp t) <= h_next h.
Proof.
  intros Hr Hnd. rewrite <- (seq_length (h_next h) 0). apply submseteq_length, NoDup_submseteq; [done|].
  intros x Hx. apply elem_of_seq. split; [lia|]. cbn. by eapply rep_fp.
Qed.
Lemma fp_walk (h : heap V) p t : rep h p t -> NoDup (fp t) -> length (fp t) <= walk_fuel h.
Proof. intros. unfold walk_fuel. etransitivity; [by eapply fp_bound|]. lia. Qed.

End Search.
