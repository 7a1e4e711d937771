(** Insert: the main theorem. *)
From Verif Require Export Insert4.
From stdpp Require Export list.
Local Open Scope nat_scope.

Section Insert.
Context {V : Type} `{GoZero V} {D : KeyDom}.
Notation art := (art V).
Notation TM := (M (st V)).
Notation nd s := (h_nodes (s_h s)).
Notation lv s := (h_leaves (s_h s)).
Notation nx s := (h_next (s_h s)).

Lemma wp_ext {S A} (m m' : M S A) Q s : m s = m' s -> wp m' Q s -> wp m Q s.
Proof. intros E. unfold wp. by rewrite E. Qed.
Lemma bind_ext {S A B} (m : M S A) (k k' : A -> M S B) s : (forall a s, k a s = k' a s) -> bind m k s = bind m k' s.
Proof. intros E. unfold bind. by destruct (m s) as [[] ]. Qed.
Lemma byteAt_ok {B} k i b (K : nat -> TM B) s : k !! i = Some b -> bind (byteAt k i) K s = K b s.
Proof. intros E. unfold byteAt, bind. by rewrite E. Qed.

Definition insP (fuel : nat) : Prop := forall (s : st V) p t key v, rep (s_h s) p t -> NoDup (fp t) -> stored key -> p `prefix_of` key ->
  t_tsize (s_t s) <> 0%N -> 2 * (length key - length p) + 2 <= fuel ->
  wp (erecursiveInsert fuel (aroot t) key v (length p)) (ins_post s p t key v) s.
Definition insQ (fuel : nat) : Prop := forall (s : st V) p a pre lf kids key v, rep (s_h s) p (Art a pre lf kids) -> kids <> [] ->
  NoDup (fp (Art a pre lf kids)) -> stored key -> p `prefix_of` key -> (forall la v0, lf <> Some (la, key, v0)) ->
  t_tsize (s_t s) <> 0%N -> 2 * (length key - length p) + 1 <= fuel ->
  wp (einsertInner fuel a key v (length p)) (ins_post s p (Art a pre lf kids) key v) s.

Lemma kid_cases (kids : list (nat * art)) b : b ∈ kids.*1 -> exists k1 t k2, kids = k1 ++ (b, t) :: k2.
Proof. intros Hb. apply elem_of_list_fmap in Hb as ([b' t] & -> & Hin). apply elem_of_list_split in Hin as (k1 & k2 & ->). eauto. Qed.

Lemma insQ_S fuel : insP fuel -> insQ (S fuel).
Proof.
  intros IH s p a pre lf kids key v Hr Hne Hnd Hsk Hpk Hown Hts Hfuel. pose proof Hr as Hr0.
  apply rep_inv in Hr as (n & Hn & Hlt & He & Hpl & Hlf & Hk1 & Hk2 & Hk3 & Hst & Hkids).
  destruct (Hk1 Hne) as (Hpn & Hpt & Hndol).
  assert (Hdown : forall b x, key = p ++ pre ++ b :: x -> b ∈ kids.*1 -> exists k1 t k2 idx, kids = k1 ++ (b, t) :: k2 /\ findChild n b = Ok (Some (aroot t), idx) /\
    wp (erecursiveInsert fuel (aroot t) key v (length p + length pre + 1)) (ins_post s (p ++ pre ++ [b]) t key v) s /\ (p ++ pre ++ [b]) `prefix_of` key).
  { intros b x Ek Hb. destruct (kid_cases _ _ Hb) as (k1 & t & k2 & ->). rewrite ents_app in He. cbn in He.
    destruct (enc_set _ _ _ _ _ He) as (idx & Hfc & _). exists k1, t, k2, idx. split; [done|]. split; [done|].
    assert (Hp' : (p ++ pre ++ [b]) `prefix_of` key) by (exists x; rewrite Ek, <- !app_assoc; done).
    assert (Hlen : length p + length pre + 1 = length (p ++ pre ++ [b])) by (rewrite !app_length; cbn; lia).
    split; [|done]. rewrite Hlen. apply IH; try done.
    - apply Hkids. apply elem_of_app. right. left.
    - rewrite fp_eq, kfp_app, kfp_cons, NoDup_cons in Hnd. destruct Hnd as [_ Hnd]. rewrite !NoDup_app in Hnd. tauto.
    - apply prefix_length in Hp'. rewrite <- Hlen in Hp' |- *. lia. }
  assert (Hadd : forall b x, key = p ++ pre ++ b :: x -> b ∉ kids.*1 -> findChild n b = Ok (None, 0) /\ b < 256 /\ (forall la k v0, lf = Some (la, k, v0) -> b <> dollar) /\
    (p ++ pre ++ [b]) `prefix_of` key /\ exists k1 k2, kids = k1 ++ k2 /\ below b (ents k1) /\ above b (ents k2)).
  { intros b x Ek Hb. assert (Hb256 : b < 256).
    { apply (stored_lookup key (length p + length pre)); [done|]. rewrite Ek, lookup_app_r by lia. rewrite lookup_app_r by lia.
      by replace (length p + length pre - length p - length pre) with 0 by lia. }
    assert (Hb' : b ∉ (ents kids).*1) by (by rewrite ents_fst).
    split; [apply findChild_None with (es := ents kids); [done|done|by apply alook_None]|]. split; [done|]. split; [|split].
    - intros la k v0 E ->. destruct (Hk3 _ _ _ E) as [Hks Hk]. destruct (Hk Hne) as [-> _]. apply (Hown la v0). rewrite E. do 2 f_equal.
      f_equal. apply stored_prefix_free; [done..|]. exists x. by rewrite Ek, <- !app_assoc.
    - exists x. by rewrite Ek, <- !app_assoc.
    - destruct (ssorted_split (ents kids) b (enc_sorted _ _ He) Hb') as (l1 & l2 & El & H1 & H2).
      apply ents_split in El as (k1 & k2 & -> & <- & <-). eauto. }
  cbn [einsertInner]. apply wp_bind. eapply wp_loadN; [exact Hn|]. rewrite Hpn.
  destruct (Nat.ltb_spec 0 (length pre)) as [Hpos|Hzero].
  - apply wp_bind, wp_getH.
    destruct (prefixMismatch_spec (s_h s) p a pre lf kids n key) as (d & Ed & Hd); try done.
    apply wp_bind. eapply wp_lift; [exact Ed|]. destruct Hd as [[Hd Hpre]|[Hd Ed']].
    + rewrite (proj2 (Nat.leb_le _ _)) by done.
      destruct (stored_ext key (p ++ pre)) as (b & x & Ek); [done..|]. rewrite <- app_assoc in Ek.
      assert (Hlk : key !! (length p + length pre) = Some b).
      { rewrite Ek, lookup_app_r by lia. rewrite lookup_app_r by lia. by replace (length p + length pre - length p - length pre) with 0 by lia. }
      assert (Hltk : (length p + length pre <? length key) = true) by (apply Nat.ltb_lt; by eapply lookup_lt_Some).
      rewrite Hltk. cbv zeta. apply wp_bind. apply wp_bind. eapply wp_byteAt; [exact Hlk|].
      destruct (decide (b ∈ kids.*1)) as [Hb|Hb].
      * destruct (Hdown b x Ek Hb) as (k1 & t & k2 & idx & -> & Hfc & Hrec & Hp'). eapply wp_lift; [exact Hfc|]. cbn beta iota.
        by eapply (ins_descend s p a pre lf k1 b t k2 n idx key v).
      * destruct (Hadd b x Ek Hb) as (Hfc & Hb256 & Hbd & Hp' & k1 & k2 & -> & Hbl & Hab). eapply wp_lift; [exact Hfc|]. cbn beta iota.
        eapply wp_use; [apply (makeLeaf_spec s key v (p ++ pre ++ [b]) Hsk Hp')|]. cbn beta.
        intros nl s1 (-> & Hnx1 & HU1 & HT2 & _).
        eapply wp_use with (P := fun r s' => r = false /\ s' = s1).
        { destruct lf as [[[la k] v0]|].
          - destruct Hlf as (-> & Hlalt & l & Hl & Hlk' & _). apply wp_bind. eapply wp_loadL; [eapply upd_leaf; [exact HU1|exact Hl|done|by intros []]|].
            apply wp_ret. split; [|done]. destruct (Hk3 _ _ _ eq_refl) as [_ Hk]. destruct (Hk Hne) as [-> _]. rewrite Hlk', app_assoc, getKey_snoc.
            specialize (Hbd _ _ _ eq_refl). rewrite Ek, app_assoc in Hsk. destruct (stored_dec _ _ _ Hsk) as (_ & _ & [(? & _)|(_ & x0 & _ & Eg)]); [done|].
            rewrite <- app_assoc, <- Ek in Eg. rewrite Eg, has_prefix_false by apply not_prefix_longer. apply andb_false_r.
          - cbn in Hlf. rewrite Hlf. by apply wp_ret. }
        intros r s' [-> ->].
        eapply wp_ext; [|eapply (ins_addkid s s1 p a pre lf k1 k2 b key v); done].
        apply bind_ext. intros a0 s0. apply (byteAt_ok _ _ _ (fun c => eaddChild a0 c (S (nx s)))) with (s := s0) in Hlk.
        unfold bind at 1. rewrite Hlk. done.
    + rewrite (proj2 (Nat.leb_gt _ _)) by done.
      destruct Hpk as [rest Er]. assert (Hdr : drop (length p) key = rest) by (by rewrite Er, drop_app). rewrite Hdr in Ed'.
      destruct (diverge pre rest) as (q & c & b & pre' & x & Epre & Erest & Hcb & El).
      { intros Hx. apply lcp_full in Hx. lia. }
      { intros [z Hz]. apply (stored_not_opn _ Hsk). rewrite Er. rewrite Hz, app_assoc in Hndol. by apply opn_app in Hndol. }
      rewrite El in Ed'. rewrite Ed'. subst pre rest.
      eapply (ins_split s p a q c pre' lf kids n key v b x); try done. congruence.
  - assert (pre = []) as -> by (destruct pre; [done|cbn in Hzero; lia]). cbn [length] in Hdown. rewrite Nat.add_0_r in Hdown.
    rewrite app_nil_r in Hndol.
    destruct (stored_ext key p) as (b & x & Ek); [done..|].
    assert (Hlk : key !! length p = Some b) by (rewrite Ek, lookup_app_r, Nat.sub_diag by lia; done).
    apply wp_bind. eapply wp_byteAt; [exact Hlk|].
    destruct (decide (b ∈ kids.*1)) as [Hb|Hb].
    + destruct (Hdown b x Ek Hb) as (k1 & t & k2 & idx & -> & Hfc & Hrec & Hp'). apply wp_bind. eapply wp_lift; [exact Hfc|]. cbn beta iota.
      by eapply (ins_descend s p a [] lf k1 b t k2 n idx key v).
    + destruct (Hadd b x Ek Hb) as (Hfc & Hb256 & Hbd & Hp' & k1 & k2 & -> & Hbl & Hab). apply wp_bind. eapply wp_lift; [exact Hfc|]. cbn beta iota.
      eapply wp_use; [apply (makeLeaf_spec s key v (p ++ [] ++ [b]) Hsk Hp')|]. cbn beta.
      intros nl s1 (-> & Hnx1 & HU1 & HT2 & _).
      rewrite (proj2 (Nat.ltb_lt _ _)) by (by eapply lookup_lt_Some).
      by eapply (ins_addkid s s1 p a [] lf k1 k2 b key v).
Qed.

Lemma insP_S fuel : insQ fuel -> insP (S fuel).
Proof.
  intros IH s p [a pre lf kids] key v Hr Hnd Hsk Hpk Hts Hfuel. pose proof Hr as Hr0.
  apply rep_inv in Hr as (n & Hn & Hlt & He & Hpl & Hlf & Hk1 & Hk2 & Hk3 & Hst & Hkids).
  cbn [erecursiveInsert aroot]. apply wp_bind, wp_getT. rewrite (proj2 (N.eqb_neq _ _)) by done.
  apply wp_bind. eapply wp_loadN; [exact Hn|]. destruct lf as [[[la k] v0]|].
  - destruct Hlf as (Hnl & Hlalt & l & Hl & Hlk & Hlv). rewrite Hnl. apply wp_bind. eapply wp_loadL; [exact Hl|].
    rewrite (rep_isLeaf _ _ _ _ _ _ _ Hr0 Hn). case_bool_decide as Hkd.
    + subst kids. cbv zeta. rewrite Hlk, Hlv.
      destruct (Nat.eqb (length key) (length k) && bytes_eqb k key) eqn:Eq.
      * apply andb_true_iff in Eq as [_ Eq]. apply bytes_eqb_true in Eq as ->. by apply ins_same.
      * assert (k <> key).
        { intros ->. rewrite Nat.eqb_refl in Eq. cbn in Eq. by rewrite (proj2 (bytes_eqb_true _ _)) in Eq. }
        by apply ins_holder.
    + rewrite Hlk. destruct (leafMatches k key) eqn:Em.
      * apply leafMatches_true in Em as ->. by apply ins_own.
      * apply leafMatches_false in Em. apply IH; try done; [|lia]. intros la0 v1 [= -> -> ->]. done.
  - cbn in Hlf. rewrite Hlf. apply IH; try done; [|lia]. intros ->. by destruct (Hk2 eq_refl) as (? & ? & ? & ? & _).
Qed.

Theorem ins_main fuel : insP fuel /\ insQ fuel.
Proof.
  induction fuel as [|fuel [IH1 IH2]]; [split; intros s p; intros; lia|].
  split; [by apply insP_S|by apply insQ_S].
Qed.
End Insert.
