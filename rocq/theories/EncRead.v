(** Reading a node in terms of its encoding: smallest and largest child, iteration order, prefixes. *)
From Verif Require Export EncOps2.
Local Open Scope nat_scope.

Lemma omap_ext_in {A B} (f g : A -> option B) (l : list A) : (forall x, x ∈ l -> f x = g x) -> omap f l = omap g l.
Proof.
  induction l as [|x l IH]; intros H; [done|]. cbn. rewrite (H x) by left. rewrite IH; [done|]. intros y Hy. apply H. by right.
Qed.
Lemma omap_alook es s m : ssorted es -> Forall (fun e => s <= e.1 < s + m) es -> omap (alook es) (seq s m) = es.*2.
Proof.
  revert es s. induction m as [|m IH]; intros es s Hs Hb.
  - destruct es as [|e es]; [done|]. apply Forall_cons in Hb as [? _]. lia.
  - cbn [seq omap list_omap]. destruct es as [|[b c] es].
    + cbn. apply (IH [] (S s)); constructor.
    + cbn in Hs. destruct Hs as [Ha Hs]. apply Forall_cons in Hb as [Hb1 Hb2]. cbn in Hb1. cbn [alook].
      destruct (Nat.eqb_spec b s) as [Heq|Hne].
      * subst b. cbn. f_equal. etransitivity; [|apply (IH es (S s)); [done|]].
        -- apply omap_ext_in. intros x Hx. apply elem_of_seq in Hx. cbn. destruct (Nat.eqb_spec s x); [lia|done].
        -- apply Forall_forall. intros e He. rewrite Forall_forall in Hb2. specialize (Hb2 e He).
           unfold above in Ha. rewrite Forall_forall in Ha. specialize (Ha e He). lia.
      * rewrite (alook_above s es).
        2:{ eapply Forall_impl; [exact Ha|]. cbn. intros; lia. }
        apply (IH ((b, c) :: es) (S s)); [done|]. constructor; [cbn; lia|].
        apply Forall_forall. intros e He. rewrite Forall_forall in Hb2. specialize (Hb2 e He).
        unfold above in Ha. rewrite Forall_forall in Ha. specialize (Ha e He). lia.
Qed.
Lemma list_eq_seq {A} (l : list A) (f : nat -> A) N : length l = N -> (forall i, i < N -> l !! i = Some (f i)) -> l = f <$> seq 0 N.
Proof.
  intros Hl H. apply list_eq. intros i. destruct (decide (i < N)).
  - rewrite H by done. rewrite list_lookup_fmap, lookup_seq_lt by done. done.
  - rewrite !lookup_ge_None_2; [done|rewrite fmap_length, seq_length; lia|lia].
Qed.
Lemma omap_fmap {A B C} (f : A -> B) (g : B -> option C) (l : list A) : omap g (f <$> l) = omap (fun x => g (f x)) l.
Proof. induction l as [|x l IH]; [done|]. cbn. destruct (g (f x)); cbn; by rewrite <- IH. Qed.

Lemma enc256_children n es : enc n es -> n_kind n = K256 -> n_children n = alook es <$> seq 0 256.
Proof.
  intros [Hso Hby Hnc Hkl Hcl Hca Hsh] Hk. rewrite Hk in *. apply list_eq_seq; [done|]. done.
Qed.
Lemma enc_iterChildren n es : enc n es -> iterChildren n = Some <$> es.*2.
Proof.
  intros He. pose proof He as [Hso Hby Hnc Hkl Hcl Hca Hsh]. unfold iterChildren.
  assert (HB : Forall (fun e => 0 <= e.1 < 0 + 256) es) by (eapply Forall_impl; [exact Hby|cbn; intros; lia]).
  destruct (n_kind n) eqn:Hk.
  1,2: destruct (enc_sorted_dec _ _ He ltac:(by rewrite Hk)) as (R & R' & HK & HC & HR & Hcap & Hst & Hn);
    rewrite HC, Hn; apply take_app_alt; by rewrite !fmap_length.
  - f_equal. destruct Hsh as (Hs1 & _ & _). rewrite <- (omap_alook es 0 256) by done.
    set (f := fun b => n_keys n !!! b).
    assert (HKs : n_keys n = f <$> seq 0 256).
    { apply list_eq_seq; [done|]. intros i Hi. unfold f. apply list_lookup_lookup_total_lt. cbn in Hkl. lia. }
    rewrite HKs at 1. rewrite omap_fmap. apply omap_ext_in. intros b Hb. apply elem_of_seq in Hb.
    specialize (Hs1 b ltac:(lia)). unfold f. rewrite list_lookup_total_alt. destruct (alook es b) as [a|] eqn:Ea.
    + destruct Hs1 as (i & -> & Hi). cbn. replace (S i =? 0) with false by done. replace (i - 0) with i by lia. by rewrite Hi.
    + rewrite Hs1. done.
  - f_equal. rewrite (enc256_children n es He Hk), omap_fmap. exact (omap_alook es 0 256 Hso HB).
Qed.

Lemma first_child_head cs : first_child256 cs = head (omap id cs).
Proof. induction cs as [|[a|] cs IH]; cbn; [done|done|exact IH]. Qed.
Lemma omap_reverse {A B} (f : A -> option B) (l : list A) : omap f (reverse l) = reverse (omap f l).
Proof.
  induction l as [|x l IH]; [done|]. rewrite reverse_cons, omap_app, IH. cbn [omap list_omap]. destruct (f x); [by rewrite reverse_cons|by rewrite app_nil_r].
Qed.
Lemma first_key48_spec A0 k B i : Forall (fun x => x = 0) A0 -> k <> 0 -> first_key48 (A0 ++ k :: B) i = i + length A0.
Proof.
  revert i. induction A0 as [|x A0 IH]; intros i Ha Hk; cbn.
  - destruct (Nat.eqb_spec k 0); [done|lia].
  - apply Forall_cons in Ha as [-> Ha]. cbn. rewrite Nat.eqb_refl, IH by done. lia.
Qed.
Lemma enc_minChild n b c es : enc n ((b, c) :: es) -> minChild n = Ok (Some c).
Proof.
  intros He. pose proof He as [Hso Hby Hnc Hkl Hcl Hca Hsh]. unfold minChild.
  destruct (n_kind n) eqn:Hk.
  1,2: unfold getChild; rewrite Hk;
    destruct (enc_key_lookup n ((b, c) :: es) 0 (b, c) He ltac:(by rewrite Hk) eq_refl) as [_ ->]; done.
  - destruct Hsh as (Hs1 & _ & _). apply Forall_cons in Hby as [Hb _]. cbn in Hb. cbn in Hso. destruct Hso as [Hab Hso].
    pose proof (Hs1 b Hb) as Hb1. cbn [alook] in Hb1. destruct (Nat.eqb_spec b b) as [_|]; [|done].
    destruct Hb1 as (i & Hi1 & Hi2).
    rewrite <- (take_drop_middle (n_keys n) b (S i)) by done.
    rewrite first_key48_spec; [|apply Forall_forall|done].
    + rewrite take_length_le by (cbn in Hkl; lia). cbn [plus].
      unfold getKeyAtIdx. rewrite Hk, Hi1. cbn [obind]. apply lookup_lt_Some in Hi2 as Hlt. cbn in Hcl.
      rewrite u8_decr_pos by lia. replace (S i - 1) with i by lia.
      replace (i <? 48) with true by (symmetry; apply Nat.ltb_lt; lia). unfold getChild. by rewrite Hk, Hi2.
    + intros x Hx. apply elem_of_list_lookup in Hx as [j Hj]. apply lookup_lt_Some in Hj as Hjl.
      rewrite take_length in Hjl. rewrite lookup_take in Hj by lia. specialize (Hs1 j ltac:(lia)).
      rewrite alook_above in Hs1; [congruence|]. constructor; [cbn; lia|]. eapply Forall_impl; [exact Hab|cbn; intros; lia].
  - rewrite first_child_head, (enc256_children n _ He Hk), omap_fmap. cbn [id].
    rewrite omap_alook; [done|done|]. eapply Forall_impl; [exact Hby|cbn; intros; lia].
Qed.
Lemma enc_maxChild n b c es : enc n (es ++ [(b, c)]) -> maxChild n = Ok (Some c).
Proof.
  intros He. pose proof He as [Hso Hby Hnc Hkl Hcl Hca Hsh]. unfold maxChild.
  destruct (n_kind n) eqn:Hk.
  1,2: unfold getChild; rewrite Hk;
    rewrite Hnc; rewrite app_length in *; cbn [length] in *; cbn in Hca; rewrite u8_decr_u8, u8_small by lia;
    replace (length es + 1 - 1) with (length es) by lia;
    destruct (enc_key_lookup n (es ++ [(b, c)]) (length es) (b, c) He ltac:(by rewrite Hk) ltac:(by apply list_lookup_middle)) as [_ ->]; done.
  - destruct Hsh as (Hs1 & _ & _). apply Forall_app in Hby as [_ Hb]. apply Forall_cons in Hb as [Hb _]. cbn in Hb.
    pose proof (ssorted_middle _ _ _ _ Hso) as (Hbe & _ & _).
    pose proof (Hs1 b Hb) as Hb1. rewrite (elem_alook _ b c Hso) in Hb1 by (apply elem_of_app; right; left).
    destruct Hb1 as (i & Hi1 & Hi2). cbn in Hkl, Hcl.
    assert (E : reverse (n_keys n) = reverse (drop (S b) (n_keys n)) ++ S i :: reverse (take b (n_keys n))).
    { rewrite <- (take_drop_middle (n_keys n) b (S i)) at 1 by done. rewrite reverse_app, reverse_cons, <- app_assoc. done. }
    rewrite E, first_key48_spec; [|apply Forall_forall|done].
    + rewrite reverse_length, drop_length, Hkl. cbn [plus].
      replace (256 - S b <? 256) with true by (symmetry; apply Nat.ltb_lt; lia).
      replace (256 - 1 - (256 - S b)) with b by lia. unfold getKeyAtIdx. rewrite Hk, Hi1. cbn [obind].
      apply lookup_lt_Some in Hi2 as Hlt.
      rewrite u8_decr_pos by lia. replace (S i - 1) with i by lia.
      replace (i <? 48) with true by (symmetry; apply Nat.ltb_lt; lia). unfold getChild. by rewrite Hk, Hi2.
    + intros x Hx. rewrite elem_of_reverse in Hx. apply elem_of_list_lookup in Hx as [j Hj]. rewrite lookup_drop in Hj.
      apply lookup_lt_Some in Hj as Hjl. specialize (Hs1 (S b + j) ltac:(lia)).
      rewrite alook_below in Hs1; [congruence|]. apply Forall_app. split; [eapply Forall_impl; [exact Hbe|cbn; intros; lia]|].
      constructor; [cbn; lia|done].
  - rewrite first_child_head, omap_reverse, (enc256_children n _ He Hk), omap_fmap. cbn [id].
    rewrite omap_alook; [|done|eapply Forall_impl; [exact Hby|cbn; intros; lia]].
    rewrite fmap_app. cbn. by rewrite reverse_app.
Qed.

Lemma enc_children_elem n es c : enc n es -> Some c ∈ n_children n -> c ∈ es.*2 \/ c ∈ stale n.
Proof.
  intros He Hc. pose proof He as [Hso Hby Hnc Hkl Hcl Hca Hsh]. destruct (n_kind n) eqn:Hk.
  1,2: destruct (enc_sorted_dec _ _ He ltac:(by rewrite Hk)) as (R & R' & HK & HC & HR & Hcap & Hst & Hn);
    rewrite HC in Hc; rewrite Hst; apply elem_of_app in Hc as [Hc|Hc];
    [left; apply elem_of_list_fmap in Hc as (y & [= ->] & Hy); done|right; apply elem_of_list_omap; by exists (Some c)].
  - left. apply elem_of_list_lookup in Hc as [i Hi]. destruct Hsh as (Hs1 & _ & Hs3). destruct (Hs3 i c Hi) as [b Hb].
    destruct (enc48_bytes n es b i He Hk Hb) as (a & Ha & Hia). assert (a = c) as -> by congruence.
    apply elem_of_list_fmap. exists (b, c). split; [done|]. by apply alook_Some_elem.
  - left. rewrite (enc256_children n es He Hk) in Hc. apply elem_of_list_fmap in Hc as (b & Hb & _).
    apply elem_of_list_fmap. exists (b, c). split; [done|]. by apply alook_Some_elem.
Qed.
Lemma enc_elem_children n es b c : enc n es -> (b, c) ∈ es -> Some c ∈ n_children n.
Proof.
  intros He Hc. pose proof He as [Hso Hby Hnc Hkl Hcl Hca Hsh]. destruct (n_kind n) eqn:Hk.
  1,2: destruct (enc_sorted_dec _ _ He ltac:(by rewrite Hk)) as (R & R' & HK & HC & HR & Hcap & Hst & Hn);
    rewrite HC; apply elem_of_app; left; apply elem_of_list_fmap_1, elem_of_list_fmap; by exists (b, c).
  - pose proof (elem_alook _ _ _ Hso Hc) as Ha. destruct Hsh as (Hs1 & _ & Hs3).
    rewrite Forall_forall in Hby. specialize (Hs1 b (Hby _ Hc)). rewrite Ha in Hs1. destruct Hs1 as (i & _ & Hi).
    by eapply elem_of_list_lookup_2.
  - pose proof (elem_alook _ _ _ Hso Hc) as Ha. rewrite (enc256_children n es He Hk). rewrite <- Ha.
    apply elem_of_list_fmap_1. apply elem_of_seq. rewrite Forall_forall in Hby. specialize (Hby _ Hc). cbn in Hby. lia.
Qed.
