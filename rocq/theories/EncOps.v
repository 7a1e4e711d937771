(** The node routines of NodeOps.v in terms of the encoding of Enc.v. *)
From Verif Require Export Enc.
Local Open Scope nat_scope.

Lemma Forall_exists_Forall2_l {A B} (P : A -> B -> Prop) l : Forall (fun x => exists y, P x y) l -> exists k, Forall2 P l k.
Proof.
  induction 1 as [|x l [y Hy] _ [k Hk]]; [by exists []|]. exists (y :: k). by constructor.
Qed.

(** ** Explicit form of the updated nodes *)
Definition set_arr (n : inode) (K : list nat) (C : list (option addr)) (N : nat) : inode :=
  mkN (n_kind n) (n_id n) (n_plen n) N (n_partial n) K C (n_ch n) (n_leaf n).

Lemma enc_sorted_dec n es : enc n es -> sortedkind (n_kind n) = true ->
  exists R R', n_keys n = es.*1 ++ R /\ n_children n = (Some <$> es.*2) ++ R' /\ length R = length R' /\
    length es + length R = cap_of (n_kind n) /\ stale n = omap id R' /\ n_nch n = length es.
Proof.
  intros He Hk. pose proof (enc_nch_sorted _ _ He Hk) as Hn. pose proof He as [Hso Hby Hnc Hkl Hcl Hca Hsh].
  assert (Hs : take (length es) (n_keys n) = es.*1 /\ take (length es) (n_children n) = Some <$> es.*2)
    by (destruct (n_kind n); done). destruct Hs as [Hs1 Hs2].
  exists (drop (length es) (n_keys n)), (drop (length es) (n_children n)).
  assert (keycap_of (n_kind n) = cap_of (n_kind n)) by (destruct (n_kind n); done).
  rewrite !drop_length. split_and!; [|..|by unfold stale; rewrite Hk, Hn|done]; [by rewrite <- Hs1, take_drop|by rewrite <- Hs2, take_drop|lia..].
Qed.
Lemma enc_mk_sorted n es R R' : sortedkind (n_kind n) = true -> ssorted es -> Forall (fun e => e.1 < 256) es ->
  n_nch n = length es -> n_keys n = es.*1 ++ R -> n_children n = (Some <$> es.*2) ++ R' ->
  length es + length R = cap_of (n_kind n) -> length R' = length R -> enc n es /\ stale n = omap id R'.
Proof.
  intros Hk Hs Hb Hn HK HC Hl Hl'.
  assert (keycap_of (n_kind n) = cap_of (n_kind n)) by (destruct (n_kind n); done).
  assert (cap_of (n_kind n) < 256) by (destruct (n_kind n); cbn; try done; lia).
  split.
  - split; [done|done|rewrite u8_small; [done|lia]|..].
    + rewrite HK, app_length, fmap_length. lia.
    + rewrite HC, app_length, !fmap_length. lia.
    + lia.
    + assert (take (length es) (n_keys n) = es.*1 /\ take (length es) (n_children n) = Some <$> es.*2).
      { rewrite HK, HC. split; apply take_app_alt; by rewrite !fmap_length. }
      destruct (n_kind n); done.
  - unfold stale. rewrite Hk, Hn, HC. f_equal. apply drop_app_alt. by rewrite !fmap_length.
Qed.

(** ** Insertion into the sorted arrays *)
Lemma ins_shift {A} (A0 B R : list A) x v :
  <[length A0 := v]> (go_copy (A0 ++ B ++ x :: R) (length A0 + 1) (slice (A0 ++ B ++ x :: R) (length A0) (length A0 + length B)))
  = A0 ++ v :: B ++ R.
Proof.
  unfold go_copy, slice. rewrite drop_app. replace (length A0 + length B - length A0) with (length B) by lia.
  rewrite take_app. rewrite !app_length. cbn [length].
  replace (length B `min` (length A0 + (length B + S (length R)) - (length A0 + 1))) with (length B) by lia.
  rewrite (take_ge B) by done.
  replace (drop (length A0 + 1 + length B) (A0 ++ B ++ x :: R)) with R.
  2:{ rewrite app_assoc. replace (A0 ++ B) with (A0 ++ B ++ []) by (by rewrite app_nil_r).
      replace ((A0 ++ B ++ []) ++ x :: R) with ((A0 ++ B ++ [x]) ++ R) by (by rewrite <- !app_assoc).
      symmetry. apply drop_app_alt. rewrite !app_length. cbn. lia. }
  destruct (B ++ x :: R) as [|y T] eqn:E; [by destruct B|].
  replace (take (length A0 + 1) (A0 ++ y :: T)) with (A0 ++ [y]).
  2:{ replace (A0 ++ y :: T) with ((A0 ++ [y]) ++ T) by (by rewrite <- app_assoc).
      symmetry. apply take_app_alt. by rewrite app_length. }
  rewrite <- app_assoc. cbn. rewrite insert_app_r_alt by lia. by rewrite Nat.sub_diag.
Qed.

Lemma insertSorted_spec n l1 l2 b c : enc n (l1 ++ l2) -> sortedkind (n_kind n) = true -> below b l1 -> above b l2 ->
  b < 256 -> length (l1 ++ l2) < cap_of (n_kind n) ->
  exists K C N, insertSorted n b c = Ok (set_arr n K C N) /\ enc (set_arr n K C N) (l1 ++ (b, c) :: l2) /\
    (forall x, x ∈ stale (set_arr n K C N) -> x ∈ stale n).
Proof.
  intros He Hk Hbl Hab Hb Hlt.
  destruct (enc_sorted_dec _ _ He Hk) as (R & R' & HK & HC & HR & Hcap & Hst & Hn).
  destruct R as [|r R]; [cbn in Hcap; lia|]. destruct R' as [|r' R']; [done|].
  unfold insertSorted. rewrite (search_gt n l1 l2 b He Hk) by (first [exact Hab|eapply Forall_impl; [exact Hbl|cbn; intros; lia]]).
  rewrite Hn, app_length. replace (length l1 + length l2 - length l1) with (length l2) by lia.
  rewrite fmap_app, <- app_assoc in HK. rewrite !fmap_app, <- app_assoc in HC.
  set (K := l1.*1 ++ b :: l2.*1 ++ R). set (C := (Some <$> l1.*2) ++ Some c :: (Some <$> l2.*2) ++ R').
  cbn [n_keys n_children set_keys set_children]. rewrite HK, HC.
  pose proof (ins_shift l1.*1 l2.*1 R r b) as E1. rewrite !fmap_length in E1.
  pose proof (ins_shift (Some <$> l1.*2) (Some <$> l2.*2) R' r' (Some c)) as E2. rewrite !fmap_length in E2.
  set (K0 := go_copy (l1.*1 ++ l2.*1 ++ r :: R) (length l1 + 1) (slice (l1.*1 ++ l2.*1 ++ r :: R) (length l1) (length l1 + length l2))) in *.
  set (C0 := go_copy ((Some <$> l1.*2) ++ (Some <$> l2.*2) ++ r' :: R') (length l1 + 1) (slice ((Some <$> l1.*2) ++ (Some <$> l2.*2) ++ r' :: R') (length l1) (length l1 + length l2))) in *.
  assert (HK0 : length l1 < length K0).
  { assert (length K0 = length K) as -> by (unfold K; rewrite <- E1, insert_length; done).
    unfold K. rewrite app_length, fmap_length. cbn. lia. }
  assert (HC0 : length l1 < length C0).
  { assert (length C0 = length C) as -> by (unfold C; rewrite <- E2, insert_length; done).
    unfold C. rewrite app_length, !fmap_length. cbn. lia. }
  exists K, C, (length (l1 ++ (b, c) :: l2)).
  assert (Hkk : n_kind n <> K256) by (destruct (n_kind n); done).
  split.
  - unfold setKeyAtIdx. cbn [n_kind set_keys set_children n_keys].
    apply Nat.ltb_lt in HK0 as ->.
    assert (E : (match n_kind n with K256 => Ok (set_children (set_keys n K0) C0)
                 | _ => Ok (set_keys (set_children (set_keys n K0) C0) (<[length l1:=b]> K0)) end : outcome inode)
              = Ok (set_keys (set_children (set_keys n K0) C0) (<[length l1:=b]> K0))) by (destruct (n_kind n); done).
    rewrite E. cbn [obind]. unfold setChildN. cbn [n_children set_keys set_children].
    apply Nat.ltb_lt in HC0 as ->. cbn [obind]. rewrite E1, E2.
    unfold set_arr, set_nch, set_children, set_keys. cbn. do 2 f_equal.
    rewrite Hn, app_length. rewrite u8_incr_small; [rewrite !app_length; cbn; lia|].
    rewrite app_length in Hlt. destruct (n_kind n); cbn in Hlt; try done; lia.
  - assert (Hbb : Forall (fun e => e.1 < 256) (l1 ++ (b, c) :: l2)).
    { pose proof (enc_byte _ _ He) as Hy. rewrite Forall_app in Hy. apply Forall_app; split; [apply Hy|constructor; [done|apply Hy]]. }
    destruct (enc_mk_sorted (set_arr n K C (length (l1 ++ (b, c) :: l2))) (l1 ++ (b, c) :: l2) R R') as [He' Hst'].
    + done.
    + apply ssorted_insert; [apply He|done|done].
    + done.
    + done.
    + cbn. unfold K. rewrite fmap_app. cbn. by rewrite <- app_assoc.
    + cbn. unfold C. rewrite !fmap_app. cbn. by rewrite <- app_assoc.
    + cbn in *. rewrite !app_length in *. cbn. lia.
    + cbn in HR. lia.
    + split; [done|]. rewrite Hst', Hst. intros x Hx. cbn. destruct r'; cbn; [by right|done].
Qed.

(** ** Insertion into Node48 and Node256 *)
Lemma free_slot_spec cs pos : (exists i, cs !! i = Some None) -> exists p, free_slot cs pos = Ok (pos + p) /\ cs !! p = Some None.
Proof.
  revert pos. induction cs as [|[c|] cs IH]; intros pos [i Hi]; [done| |].
  - destruct i as [|i]; [done|]. cbn in *. destruct (IH (pos + 1) (ex_intro _ i Hi)) as (p & E & Hp).
    exists (S p). rewrite E. split; [f_equal; lia|done].
  - exists 0. cbn. split; [f_equal; lia|done].
Qed.
Lemma enc48_bytes n es b i : enc n es -> n_kind n = K48 -> n_keys n !! b = Some (S i) ->
  exists a, alook es b = Some a /\ n_children n !! i = Some (Some a).
Proof.
  intros [Hso Hby Hnc Hkl Hcl Hca Hsh] Hk Hb. rewrite Hk in *. assert (b < 256). { apply lookup_lt_Some in Hb. cbn in *. lia. }
  destruct Hsh as (Hs1 & _ & _). specialize (Hs1 b ltac:(done)). destruct (alook es b) as [a|].
  - destruct Hs1 as (j & Hj & Hc). exists a. rewrite Hj in Hb. injection Hb as ->. done.
  - congruence.
Qed.
Lemma enc48_free n es : enc n es -> n_kind n = K48 -> length es < 48 -> exists i, n_children n !! i = Some None.
Proof.
  intros He Hk Hlt. destruct (decide (None ∈ n_children n)) as [Hin|Hni].
  { by apply elem_of_list_lookup in Hin. }
  exfalso. pose proof He as [Hso Hby Hnc Hkl Hcl Hca Hsh]. rewrite Hk in *. destruct Hsh as (Hs1 & Hs2 & Hs3).
  assert (H : exists bs, Forall2 (fun i b => n_keys n !! b = Some (S i) /\ b ∈ es.*1) (seq 0 48) bs).
  { apply Forall_exists_Forall2_l. apply Forall_forall. intros i Hi%elem_of_seq.
    destruct (lookup_lt_is_Some_2 (n_children n) i) as [[a|] Ha]; [cbn in *; lia| |].
    - destruct (Hs3 i a Ha) as [b Hb]. exists b. split; [done|].
      destruct (enc48_bytes n es b i He Hk Hb) as (a' & Ha' & _). apply alook_Some_elem in Ha'.
      by apply (elem_of_list_fmap_1 fst) in Ha'.
    - exfalso. apply Hni. by eapply elem_of_list_lookup_2. }
  destruct H as [bs Hbs].
  assert (length bs <= length es.*1); [|rewrite fmap_length in *; apply Forall2_length in Hbs; rewrite seq_length in Hbs; lia].
  apply submseteq_length, NoDup_submseteq.
  - apply NoDup_alt. intros x y b Hx Hy.
    destruct (Forall2_lookup_r _ _ _ _ _ Hbs Hx) as (i & Hi & Hi1 & _).
    destruct (Forall2_lookup_r _ _ _ _ _ Hbs Hy) as (j & Hj & Hj1 & _).
    assert (i = j) as <- by congruence. eapply NoDup_lookup; [apply NoDup_seq|done..].
  - intros b Hb. apply elem_of_list_lookup in Hb as [x Hx]. by destruct (Forall2_lookup_r _ _ _ _ _ Hbs Hx) as (i & Hi & Hi1 & ?).
Qed.
Lemma insert48_spec n l1 l2 b c : enc n (l1 ++ l2) -> n_kind n = K48 -> below b l1 -> above b l2 ->
  b < 256 -> length (l1 ++ l2) < 48 ->
  exists K C N, insert48 n b c = Ok (set_arr n K C N) /\ enc (set_arr n K C N) (l1 ++ (b, c) :: l2).
Proof.
  intros He Hk Hbl Hab Hb Hlt. destruct (enc48_free _ _ He Hk Hlt) as [i0 Hi0].
  destruct (free_slot_spec (n_children n) 0) as (p & E & Hp); [by exists i0|]. cbn in E.
  pose proof He as [Hso Hby Hnc Hkl Hcl Hca Hsh]. rewrite Hk in Hkl, Hcl, Hca, Hsh. cbn in *.
  assert (Hpl : p < length (n_children n)) by (by eapply lookup_lt_Some).
  exists (<[b := S p]> (n_keys n)), (<[p := Some c]> (n_children n)), (u8_incr (n_nch n)).
  split.
  - unfold insert48. rewrite E. cbn [obind]. unfold setChildN. rewrite (proj2 (Nat.ltb_lt _ _) Hpl). cbn [obind].
    unfold setKeyAtIdx. cbn [n_kind set_children n_keys]. rewrite Hk, Hkl.
    replace (b <? 256) with true by (symmetry; apply Nat.ltb_lt; lia). cbn [obind].
    rewrite u8_small by lia. unfold set_arr, set_nch, set_keys, set_children. cbn. by rewrite Nat.add_1_r, Hk.
  - destruct Hsh as (Hs1 & Hs2 & Hs3). split; cbn -[length u8].
    + by apply ssorted_insert.
    + rewrite Forall_app in *. split; [|constructor; [done|]]; apply Hby.
    + rewrite Hnc, u8_incr_u8. f_equal. rewrite !app_length. cbn. lia.
    + by rewrite insert_length, Hk.
    + by rewrite insert_length, Hk.
    + rewrite Hk. rewrite app_length in *. cbn. lia.
    + rewrite Hk.
      assert (Hfresh : forall b', n_keys n !! b' <> Some (S p)).
      { intros b' Hb'. destruct (enc48_bytes n _ b' p He Hk Hb') as (a & _ & Ha). congruence. }
      split_and!.
      * intros x Hx. rewrite alook_insert by done. specialize (Hs1 x Hx). destruct (Nat.eqb_spec b x) as [Heq|Hne].
        -- subst x. exists p. rewrite !list_lookup_insert by lia. done.
        -- rewrite list_lookup_insert_ne by done. destruct (alook (l1 ++ l2) x) as [a|]; [|done].
           destruct Hs1 as (i & Hi1 & Hi2). exists i. split; [done|]. rewrite list_lookup_insert_ne; [done|]. intros <-. by eapply Hfresh.
      * intros x y i Hx Hy. destruct (decide (x = b)) as [->|Hxb], (decide (y = b)) as [->|Hyb]; [done|..].
        -- rewrite list_lookup_insert in Hx by lia. rewrite list_lookup_insert_ne in Hy by done.
           injection Hx as <-. by apply Hfresh in Hy.
        -- rewrite list_lookup_insert in Hy by lia. rewrite list_lookup_insert_ne in Hx by done.
           injection Hy as <-. by apply Hfresh in Hx.
        -- rewrite list_lookup_insert_ne in Hx, Hy by done. by eapply Hs2.
      * intros i a Hia. destruct (decide (i = p)) as [->|Hip].
        -- exists b. rewrite list_lookup_insert by lia. done.
        -- rewrite list_lookup_insert_ne in Hia by done. destruct (Hs3 i a Hia) as [b' Hb']. exists b'.
           rewrite list_lookup_insert_ne; [done|]. intros <-. destruct (enc48_bytes n _ b i He Hk Hb') as (a' & Ha' & _).
           rewrite alook_app, alook_below in Ha' by done. by rewrite alook_above in Ha'.
Qed.
Lemma insert256_spec n l1 l2 b c : enc n (l1 ++ l2) -> n_kind n = K256 -> below b l1 -> above b l2 -> b < 256 ->
  exists K C N, insert256 n b c = Ok (set_arr n K C N) /\ enc (set_arr n K C N) (l1 ++ (b, c) :: l2).
Proof.
  intros He Hk Hbl Hab Hb. pose proof He as [Hso Hby Hnc Hkl Hcl Hca Hsh]. rewrite Hk in Hkl, Hcl, Hca, Hsh. cbn in *.
  exists (n_keys n), (<[b := Some c]> (n_children n)), (u8_incr (n_nch n)). split.
  - unfold insert256, setChildN. cbn. rewrite Hcl. replace (b <? 256) with true by (symmetry; by apply Nat.ltb_lt). done.
  - assert (Hss : ssorted (l1 ++ (b, c) :: l2)) by (by apply ssorted_insert).
    assert (Hbb : Forall (fun e => e.1 < 256) (l1 ++ (b, c) :: l2)).
    { rewrite Forall_app in *. split; [|constructor; [done|]]; apply Hby. }
    split; cbn -[length u8].
    + done.
    + done.
    + rewrite Hnc, u8_incr_u8. f_equal. rewrite !app_length. cbn. lia.
    + by rewrite Hk.
    + by rewrite insert_length, Hk.
    + rewrite Hk. cbn. rewrite <- (fmap_length fst).
      rewrite <- (seq_length 256 0). apply submseteq_length, NoDup_submseteq; [by apply ssorted_NoDup|].
      intros x (e & -> & Hin)%elem_of_list_fmap. rewrite Forall_forall in Hbb. apply Hbb in Hin. apply elem_of_seq. lia.
    + rewrite Hk. intros x Hx. rewrite alook_insert by done. destruct (Nat.eqb_spec b x) as [Heq|Hne].
      * subst x. by rewrite list_lookup_insert by lia.
      * by rewrite list_lookup_insert_ne, Hsh.
Qed.
