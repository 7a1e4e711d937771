(** Removal, growth and shrinking of nodes in terms of the encoding; smallest and largest child. *)
From Verif Require Export EncOps.
Local Open Scope nat_scope.

(** ** Removal *)
Fixpoint lst {A} (x : A) (l : list A) : A := match l with [] => x | y :: l' => lst y l' end.
Lemma lst_elem {A} (x : A) l : lst x l = x \/ lst x l ∈ l.
Proof.
  revert x. induction l as [|y l IH]; intros x; cbn; [by left|]. destruct (IH y) as [->|H]; right; [left|by right].
Qed.

Lemma shift_noop m : forall cs j pos rest, j + m <= pos -> j + m <= length cs ->
  shift_loop cs j pos (seq j m ++ rest) = shift_loop cs (j + m) pos rest.
Proof.
  induction m as [|m IH]; intros cs j pos rest Hp Hl; cbn; [by rewrite Nat.add_0_r|].
  destruct (Nat.eqb_spec j pos); [lia|].
  destruct (lookup_lt_is_Some_2 cs j ltac:(lia)) as [x Hx]. rewrite Hx. cbn. rewrite list_insert_id by done.
  replace (j + 1) with (S j) by lia. rewrite IH by lia. f_equal. lia.
Qed.
Lemma shift_rest B : forall A0 x R pos, pos <= length A0 ->
  shift_loop (A0 ++ x :: B ++ R) (length A0) pos (seq (S (length A0)) (length B)) = A0 ++ B ++ lst x B :: R.
Proof.
  induction B as [|y B IH]; intros A0 x R pos Hp; [done|]. cbn [seq length app shift_loop lst].
  destruct (Nat.eqb_spec (S (length A0)) pos); [lia|].
  replace ((A0 ++ x :: y :: B ++ R) !! S (length A0)) with (Some y).
  2:{ rewrite lookup_app_r by lia. by replace (S (length A0) - length A0) with 1 by lia. }
  cbn [default]. rewrite insert_app_r_alt by lia. rewrite Nat.sub_diag. cbn.
  specialize (IH (A0 ++ [y]) y R pos). rewrite app_length in IH. cbn [length] in IH.
  rewrite <- !app_assoc in IH. cbn in IH. rewrite Nat.add_1_r in *. rewrite IH by lia. done.
Qed.
Lemma shift_full A0 x B R : shift_loop (A0 ++ x :: B ++ R) 0 (length A0) (seq 0 (length A0 + S (length B))) = A0 ++ B ++ lst x B :: R.
Proof.
  rewrite seq_app. rewrite shift_noop by (rewrite ?app_length; lia). cbn [seq shift_loop plus].
  rewrite Nat.eqb_refl. by apply shift_rest.
Qed.
Lemma del_shift {A} (A0 T : list A) x : exists z, go_copy (A0 ++ x :: T) (length A0) (drop (length A0 + 1) (A0 ++ x :: T)) = A0 ++ T ++ [z].
Proof.
  replace (drop (length A0 + 1) (A0 ++ x :: T)) with T.
  2:{ replace (A0 ++ x :: T) with ((A0 ++ [x]) ++ T) by (by rewrite <- app_assoc).
      symmetry. apply drop_app_alt. by rewrite app_length. }
  unfold go_copy. rewrite app_length. cbn [length].
  replace (length T `min` (length A0 + S (length T) - length A0)) with (length T) by lia.
  rewrite take_app, (take_ge T) by done.
  destruct T as [|y T] using rev_ind; [exists x; cbn; rewrite Nat.add_0_r; f_equal; by rewrite drop_app|].
  exists y. f_equal. f_equal. rewrite app_length. cbn.
  replace (A0 ++ x :: T ++ [y]) with ((A0 ++ x :: T) ++ [y]) by (by rewrite <- app_assoc).
  apply drop_app_alt. rewrite app_length. cbn. lia.
Qed.

Lemma removeSorted_spec n l1 b c l2 : enc n (l1 ++ (b, c) :: l2) -> sortedkind (n_kind n) = true ->
  exists st K C, removeSorted (set_children n (<[length l1 := None]> (n_children n))) b = Ok (st, set_arr n K C (length (l1 ++ l2))) /\
    enc (set_arr n K C (length (l1 ++ l2))) (l1 ++ l2) /\
    (forall x, x ∈ stale (set_arr n K C (length (l1 ++ l2))) -> exists b', (b', x) ∈ l1 ++ l2).
Proof.
  intros He Hk. pose proof (ssorted_middle _ _ _ _ (enc_sorted _ _ He)) as (H1 & H2 & H3).
  destruct (enc_sorted_dec _ _ He Hk) as (R & R' & HK & HC & HR & Hcap & Hst & Hn).
  rewrite fmap_app in HK. cbn in HK. rewrite <- app_assoc in HK. cbn in HK.
  rewrite !fmap_app in HC. cbn in HC. rewrite <- app_assoc in HC. cbn in HC.
  destruct (del_shift l1.*1 (l2.*1 ++ R) b) as [z Hz]. rewrite fmap_length in Hz.
  set (K := l1.*1 ++ (l2.*1 ++ R) ++ [z]) in *.
  set (x := lst None (Some <$> l2.*2)).
  set (C := (Some <$> l1.*2) ++ (Some <$> l2.*2) ++ x :: replicate (length R) None).
  assert (Hbb : Forall (fun e => e.1 < 256) (l1 ++ l2)).
  { pose proof (enc_byte _ _ He) as Hy. rewrite Forall_app, Forall_cons in Hy. apply Forall_app; tauto. }
  eexists _, K, C. split; [|].
  - unfold removeSorted. cbn [n_nch n_keys n_children set_children set_keys].
    rewrite (search_ge n l1 ((b, c) :: l2) b He Hk H1).
    2:{ constructor; [done|]. eapply Forall_impl; [exact H2|]. cbn. intros; lia. }
    rewrite HK at 1. rewrite app_length, fmap_length. cbn [length].
    destruct (Nat.ltb_spec (length l1 + S (length (l2.*1 ++ R))) (length l1 + 1)); [lia|].
    rewrite HK, Hz. fold K. rewrite HC.
    replace (<[length l1:=None]> ((Some <$> l1.*2) ++ Some c :: (Some <$> l2.*2) ++ R'))
      with ((Some <$> l1.*2) ++ None :: (Some <$> l2.*2) ++ R').
    2:{ rewrite insert_app_r_alt by (rewrite !fmap_length; lia). by rewrite !fmap_length, Nat.sub_diag. }
    rewrite Hn, app_length. cbn [length].
    pose proof (shift_full (Some <$> l1.*2) None (Some <$> l2.*2) R') as Hsh. rewrite !fmap_length in Hsh.
    rewrite Hsh. fold x. f_equal. f_equal.
    unfold set_arr, set_nch, set_children, set_keys. cbn. f_equal.
    + rewrite u8_decr_pos; rewrite ?app_length; cbn [length]; [lia|lia|].
      rewrite app_length in Hcap. cbn [length] in Hcap. destruct (n_kind n); cbn in *; try done; lia.
    + unfold clear_from, C.
      replace ((Some <$> l1.*2) ++ (Some <$> l2.*2) ++ x :: R') with (((Some <$> l1.*2) ++ (Some <$> l2.*2) ++ [x]) ++ R')
        by (by rewrite <- !app_assoc).
      rewrite take_app_alt by (rewrite !app_length, !fmap_length; cbn; lia).
      rewrite <- !app_assoc. cbn. do 3 f_equal. f_equal. rewrite !app_length. cbn. rewrite !fmap_length. lia.
  - destruct (enc_mk_sorted (set_arr n K C (length (l1 ++ l2))) (l1 ++ l2) (R ++ [z]) (x :: replicate (length R) None)) as [He' Hst'].
    + done.
    + done.
    + done.
    + done.
    + cbn. unfold K. rewrite fmap_app. by rewrite <- !app_assoc.
    + cbn. unfold C. rewrite !fmap_app. by rewrite <- !app_assoc.
    + cbn in *. rewrite !app_length in *. cbn in *. lia.
    + cbn. rewrite app_length, replicate_length. cbn. lia.
    + split; [done|]. rewrite Hst'. intros y Hy. apply elem_of_list_omap in Hy as (o & Ho & Hid). cbn in Hid. subst o.
      apply elem_of_cons in Ho as [Ho|Ho]; [|by apply elem_of_replicate in Ho as [? _]].
      destruct (lst_elem None (Some <$> l2.*2)) as [E|E]; fold x in E; [congruence|]. rewrite <- Ho in E.
      apply elem_of_list_fmap in E as (y' & [= ->] & Hin). apply elem_of_list_fmap in Hin as ([b' y''] & -> & Hin).
      exists b'. apply elem_of_app. by right.
Qed.

Lemma enc48_remove n l1 b c l2 idx : enc n (l1 ++ (b, c) :: l2) -> n_kind n = K48 -> n_keys n !! b = Some (S idx) ->
  enc (set_arr n (<[b := 0]> (n_keys n)) (<[idx := None]> (n_children n)) (u8_decr (n_nch n))) (l1 ++ l2).
Proof.
  intros He Hk Hidx. pose proof (ssorted_middle _ _ _ _ (enc_sorted _ _ He)) as (H1 & H2 & H3).
  pose proof He as [Hso Hby Hnc Hkl Hcl Hca Hsh]. rewrite Hk in Hkl, Hcl, Hca, Hsh. cbn in Hkl, Hcl, Hca.
  destruct Hsh as (Hs1 & Hs2 & Hs3).
  assert (Hb : b < 256) by (apply lookup_lt_Some in Hidx; lia).
  assert (Hi : idx < 48).
  { destruct (enc48_bytes _ _ _ _ He Hk Hidx) as (a & _ & Ha). apply lookup_lt_Some in Ha. lia. }
  split; cbn -[length u8].
  - done.
  - rewrite Forall_app, Forall_cons in Hby. apply Forall_app. tauto.
  - rewrite Hnc, u8_decr_u8; rewrite !app_length; cbn; [f_equal; lia|lia].
  - by rewrite insert_length, Hk.
  - by rewrite insert_length, Hk.
  - rewrite Hk. rewrite app_length in *. cbn in *. lia.
  - rewrite Hk. split_and!.
    + intros x Hx. specialize (Hs1 x Hx). rewrite alook_insert in Hs1 by done. destruct (Nat.eqb_spec b x) as [Heq|Hne].
      * subst x. rewrite alook_app, alook_below, alook_above by done. by rewrite list_lookup_insert by lia.
      * rewrite list_lookup_insert_ne by done. destruct (alook (l1 ++ l2) x) as [a|]; [|done].
        destruct Hs1 as (i & Hi1 & Hi2). exists i. split; [done|]. rewrite list_lookup_insert_ne; [done|].
        intros <-. apply Hne. by eapply Hs2.
    + intros x y i Hx Hy.
      assert (x <> b). { intros ->. rewrite list_lookup_insert in Hx by lia. done. }
      assert (y <> b). { intros ->. rewrite list_lookup_insert in Hy by lia. done. }
      rewrite list_lookup_insert_ne in Hx, Hy by done. by eapply Hs2.
    + intros i a Hia. assert (i <> idx). { intros ->. rewrite list_lookup_insert in Hia by lia. done. }
      rewrite list_lookup_insert_ne in Hia by done. destruct (Hs3 i a Hia) as [b' Hb']. exists b'.
      rewrite list_lookup_insert_ne; [done|]. intros <-. congruence.
Qed.
Lemma enc256_remove n l1 b c l2 : enc n (l1 ++ (b, c) :: l2) -> n_kind n = K256 ->
  enc (set_arr n (n_keys n) (<[b := None]> (n_children n)) (u8_decr (n_nch n))) (l1 ++ l2).
Proof.
  intros He Hk. pose proof (ssorted_middle _ _ _ _ (enc_sorted _ _ He)) as (H1 & H2 & H3).
  pose proof He as [Hso Hby Hnc Hkl Hcl Hca Hsh]. rewrite Hk in Hkl, Hcl, Hca, Hsh. cbn in Hkl, Hcl, Hca.
  split; cbn -[length u8].
  - done.
  - rewrite Forall_app, Forall_cons in Hby. apply Forall_app. tauto.
  - rewrite Hnc, u8_decr_u8; rewrite !app_length; cbn; [f_equal; lia|lia].
  - by rewrite Hk.
  - by rewrite insert_length, Hk.
  - rewrite Hk. rewrite app_length in *. cbn in *. lia.
  - rewrite Hk. intros x Hx. specialize (Hsh x Hx). rewrite alook_insert in Hsh by done. destruct (Nat.eqb_spec b x) as [Heq|Hne].
    + subst x. rewrite alook_app, alook_below, alook_above by done. by rewrite list_lookup_insert by lia.
    + by rewrite list_lookup_insert_ne by done.
Qed.

(** ** Growth *)
(** 4 -> 16 and 16 -> 4: prefixes of sorted arrays *)
Lemma go_copy_zero {A} (d s : list A) : length s <= length d -> go_copy d 0 s = s ++ drop (length s) d.
Proof. intros H. unfold go_copy. rewrite take_0. cbn. rewrite Nat.sub_0_r, Nat.min_l by lia. by rewrite (take_ge s). Qed.

Lemma grow4_spec n es d : enc n es -> n_kind n = K4 -> n_kind d = K16 -> n_keys d = replicate 16 0 -> n_children d = replicate 16 None ->
  enc (set_arr d (go_copy (n_keys d) 0 (take (n_nch n) (n_keys n))) (go_copy (n_children d) 0 (take (n_nch n) (n_children n))) (n_nch n)) es /\
  stale (set_arr d (go_copy (n_keys d) 0 (take (n_nch n) (n_keys n))) (go_copy (n_children d) 0 (take (n_nch n) (n_children n))) (n_nch n)) = [].
Proof.
  intros He Hk Hd HdK HdC.
  destruct (enc_sorted_dec _ _ He ltac:(by rewrite Hk)) as (R & R' & HK & HC & HR & Hcap & Hst & Hn).
  pose proof He as [Hso Hby Hnc Hkl Hcl Hca Hsh]. rewrite Hk in Hca, Hcap. cbn in Hca, Hcap.
  rewrite Hn, HK, HC, !take_app_alt, HdK, HdC by (by rewrite !fmap_length).
  rewrite !go_copy_zero by (rewrite !fmap_length, replicate_length; lia). rewrite !fmap_length, !drop_replicate.
  match goal with |- enc ?x _ /\ _ =>
    destruct (enc_mk_sorted x es (replicate (16 - length es) 0) (replicate (16 - length es) None)) as [He' Hst'] end;
    cbn; rewrite ?Hd, ?replicate_length; cbn; try done; [lia|].
  split; [done|]. rewrite Hst'. generalize (16 - length es). induction n0; done.
Qed.
Lemma shrink16_spec n es d : enc n es -> n_kind n = K16 -> length es = 3 -> n_kind d = K4 -> length (n_keys d) = 4 -> length (n_children d) = 4 ->
  enc (set_arr d (go_copy (n_keys d) 0 (take 4 (n_keys n))) (go_copy (n_children d) 0 (take 4 (n_children n))) (n_nch n)) es /\
  (forall x, x ∈ stale (set_arr d (go_copy (n_keys d) 0 (take 4 (n_keys n))) (go_copy (n_children d) 0 (take 4 (n_children n))) (n_nch n)) -> x ∈ stale n).
Proof.
  intros He Hk Hl Hd HdK HdC.
  destruct (enc_sorted_dec _ _ He ltac:(by rewrite Hk)) as (R & R' & HK & HC & HR & Hcap & Hst & Hn).
  pose proof He as [Hso Hby Hnc Hkl Hcl Hca Hsh]. rewrite Hk in Hca, Hcap. cbn in Hca, Hcap.
  destruct R as [|r R]; [cbn in *; lia|]. destruct R' as [|r' R']; [done|].
  rewrite HK, HC.
  replace (es.*1 ++ r :: R) with ((es.*1 ++ [r]) ++ R) by (by rewrite <- app_assoc).
  replace ((Some <$> es.*2) ++ r' :: R') with (((Some <$> es.*2) ++ [r']) ++ R') by (by rewrite <- app_assoc).
  rewrite !take_app_alt by (rewrite app_length, !fmap_length; cbn; lia).
  rewrite !go_copy_zero by (rewrite app_length, !fmap_length; cbn; lia).
  rewrite !app_length, !fmap_length, Hl. cbn [length plus]. rewrite !drop_ge, !app_nil_r by lia.
  match goal with |- enc ?x _ /\ _ => destruct (enc_mk_sorted x es [r] [r']) as [He' Hst'] end;
    cbn; rewrite ?Hd; try done; [cbn; lia|].
  split; [done|]. rewrite Hst', Hst. intros y Hy. cbn in *. destruct r'; cbn in *; [|by apply elem_of_nil in Hy].
  apply elem_of_list_singleton in Hy as ->. left.
Qed.

(** 16 -> 48 *)
Lemma fill48_spec src es d : enc src es -> n_kind src = K16 -> n_kind d = K48 ->
  forall m j K, length K = 256 -> n_keys d = K -> j + m = length es ->
  (forall i e, i < j -> es !! i = Some e -> K !! e.1 = Some (S i)) ->
  (forall b x, K !! b = Some x -> x = 0 \/ exists i e, i < j /\ es !! i = Some e /\ e.1 = b /\ x = S i) ->
  exists K', fill48 d src (seq j m) = Ok (set_keys d K') /\ length K' = 256 /\
   (forall i e, i < length es -> es !! i = Some e -> K' !! e.1 = Some (S i)) /\
   (forall b x, K' !! b = Some x -> x = 0 \/ exists i e, i < length es /\ es !! i = Some e /\ e.1 = b /\ x = S i).
Proof.
  intros He Hks Hkd m. revert d Hkd. induction m as [|m IH]; intros d Hkd j K HKl HK Hj H1 H2.
  - cbn. replace (length es) with j by lia. exists K. split; [f_equal; subst K; by destruct d|]. done.
  - cbn [seq fill48]. destruct (lookup_lt_is_Some_2 es j ltac:(lia)) as [[b c] Hjb].
    destruct (enc_key_lookup src es j (b, c) He ltac:(by rewrite Hks) Hjb) as [Hkey _].
    unfold getKeyAtIdx. rewrite Hks, Hkey. cbn [obind fst].
    pose proof He as [Hso Hby Hnc Hkl Hcl Hca Hsh]. rewrite Hks in Hca. cbn in Hca.
    assert (Hb : b < 256). { rewrite Forall_forall in Hby. apply (Hby (b, c)). by eapply elem_of_list_lookup_2. }
    unfold setKeyAtIdx. rewrite Hkd, HK, HKl. replace (b <? 256) with true by (symmetry; by apply Nat.ltb_lt).
    cbn [obind]. rewrite u8_small by lia. rewrite Nat.add_1_r.
    assert (Hnd : forall i e, i <> j -> es !! i = Some e -> e.1 <> b).
    { intros i e Hij Hi Heq. apply Hij. eapply (NoDup_lookup es.*1 i j b); [by apply ssorted_NoDup|..];
        rewrite list_lookup_fmap; [by rewrite Hi, <- Heq|by rewrite Hjb]. }
    destruct (IH (set_keys d (<[b:=S j]> K)) Hkd (S j) (<[b:=S j]> K)) as (K' & E & HK1 & HK2 & HK3).
    + by rewrite insert_length.
    + done.
    + lia.
    + intros i e Hi Hie. destruct (decide (i = j)) as [->|Hij].
      * assert (e = (b, c)) as -> by congruence. cbn. by rewrite list_lookup_insert by lia.
      * rewrite list_lookup_insert_ne; [apply H1; [lia|done]|]. intros Heq. by apply (Hnd i e).
    + intros x v Hx. destruct (decide (x = b)) as [->|Hxb].
      * rewrite list_lookup_insert in Hx by lia. injection Hx as <-. right. exists j, (b, c). split_and!; [lia|done..].
      * rewrite list_lookup_insert_ne in Hx by done. destruct (H2 x v Hx) as [?|(i & e & ? & ? & ? & ?)]; [by left|].
        right. exists i, e. split_and!; [lia|done..].
    + exists K'. split; [|done]. rewrite E. done.
Qed.
Lemma grow16_spec n es d : enc n es -> n_kind n = K16 -> n_kind d = K48 -> n_keys d = replicate 256 0 -> n_children d = replicate 48 None ->
  exists K', fill48 (set_children d (go_copy (n_children d) 0 (take (n_nch n) (n_children n)))) n (seq 0 (n_nch n))
         = Ok (set_keys (set_children d (go_copy (n_children d) 0 (take (n_nch n) (n_children n)))) K') /\
   enc (set_arr d K' (go_copy (n_children d) 0 (take (n_nch n) (n_children n))) (n_nch n)) es.
Proof.
  intros He Hk Hd HdK HdC.
  destruct (enc_sorted_dec _ _ He ltac:(by rewrite Hk)) as (R & R' & HK & HC & HR & Hcap & Hst & Hn).
  pose proof He as [Hso Hby Hnc Hkl Hcl Hca Hsh]. rewrite Hk in Hca, Hcap. cbn in Hca, Hcap.
  set (C := go_copy (n_children d) 0 (take (n_nch n) (n_children n))).
  assert (EC : C = (Some <$> es.*2) ++ replicate (48 - length es) None).
  { unfold C. rewrite Hn, HC, take_app_alt, HdC by (by rewrite !fmap_length).
    rewrite go_copy_zero by (rewrite !fmap_length, replicate_length; lia). by rewrite !fmap_length, drop_replicate. }
  rewrite Hn.
  destruct (fill48_spec n es (set_children d C) He Hk Hd (length es) 0 (replicate 256 0)) as (K' & E & HK1 & HK2 & HK3).
  - apply replicate_length.
  - done.
  - lia.
  - intros; lia.
  - intros b x Hx. apply lookup_replicate in Hx as [-> _]. by left.
  - exists K'. split; [done|]. split; cbn -[u8 length]; rewrite ?Hd.
    + done.
    + done.
    + rewrite u8_small by lia. done.
    + done.
    + rewrite EC, app_length, !fmap_length, replicate_length. cbn. lia.
    + cbn. lia.
    + split_and!.
      * intros b Hb. destruct (alook es b) as [a|] eqn:Ea.
        -- apply alook_Some_elem, elem_of_list_lookup in Ea as [i Hi]. exists i. split.
           ++ apply (HK2 i (b, a)); [by eapply lookup_lt_Some|done].
           ++ rewrite EC, lookup_app_l by (rewrite !fmap_length; by eapply lookup_lt_Some). by rewrite !list_lookup_fmap, Hi.
        -- destruct (lookup_lt_is_Some_2 K' b ltac:(lia)) as [x Hx]. rewrite Hx. f_equal.
           destruct (HK3 b x Hx) as [?|(i & e & Hi & Hie & Heb & _)]; [done|]. exfalso.
           apply alook_None in Ea. apply Ea. rewrite <- Heb. apply elem_of_list_fmap_1. by eapply elem_of_list_lookup_2.
      * intros b b' i Hb Hb'. destruct (HK3 b _ Hb) as [?|(i1 & e1 & _ & He1 & <- & [= <-])]; [done|].
        destruct (HK3 b' _ Hb') as [?|(i2 & e2 & _ & He2 & <- & [= <-])]; [done|]. congruence.
      * intros i a Hia. rewrite EC in Hia. assert (Hi : i < length es).
        { destruct (decide (i < length es)); [done|]. rewrite lookup_app_r in Hia by (rewrite !fmap_length; lia).
          by apply lookup_replicate in Hia as [? _]. }
        destruct (lookup_lt_is_Some_2 es i Hi) as [e Hie]. exists e.1. by apply HK2.
Qed.

(** 48 -> 256 *)
Lemma fill256_spec src es : enc src es -> n_kind src = K48 ->
  forall m j d, n_kind d = K256 -> length (n_children d) = 256 -> j + m = 256 ->
  (forall b, b < j -> n_children d !! b = Some (alook es b)) ->
  (forall b, j <= b -> b < 256 -> n_children d !! b = Some None) ->
  exists C', fill256 d src (seq j m) = Ok (set_children d C') /\ length C' = 256 /\
   (forall b, b < 256 -> C' !! b = Some (alook es b)).
Proof.
  intros He Hks. induction m as [|m IH]; intros j d Hkd Hl Hj H1 H2.
  - cbn. exists (n_children d). split; [by destruct d|]. split; [done|]. intros. apply H1. lia.
  - cbn [seq fill256]. pose proof He as [Hso Hby Hnc Hkl Hcl Hca Hsh]. rewrite Hks in Hca, Hsh, Hkl, Hcl. cbn in Hca, Hkl, Hcl.
    destruct Hsh as (Hs1 & _ & _). specialize (Hs1 j ltac:(lia)).
    unfold getKeyAtIdx. rewrite Hks. destruct (alook es j) as [a|] eqn:Ea.
    + destruct Hs1 as (i & Hi1 & Hi2). rewrite Hi1. cbn [obind Nat.eqb]. replace (S i =? 0) with false by done. cbn [obind].
      unfold getChild. rewrite Hks. replace (S i - 1) with i by lia. rewrite Hi2. cbn [obind].
      unfold setChildN. rewrite Hl. replace (j <? 256) with true by (symmetry; apply Nat.ltb_lt; lia). cbn [obind].
      destruct (IH (S j) (set_children d (<[j:=Some a]> (n_children d)))) as (C' & E & HC1 & HC2).
      * done.
      * cbn. by rewrite insert_length.
      * lia.
      * intros b Hb. cbn. destruct (decide (b = j)) as [->|]; [by rewrite list_lookup_insert, Ea by lia|].
        rewrite list_lookup_insert_ne by done. apply H1. lia.
      * intros b Hb Hb'. cbn. rewrite list_lookup_insert_ne by lia. apply H2; lia.
      * exists C'. by rewrite E.
    + rewrite Hs1. cbn [obind]. replace (0 =? 0) with true by done.
      apply IH; [done|done|lia| |].
      * intros b Hb. destruct (decide (b = j)) as [->|]; [rewrite Ea; apply H2; lia|apply H1; lia].
      * intros b Hb Hb'. apply H2; lia.
Qed.
Lemma grow48_spec n es d : enc n es -> n_kind n = K48 -> n_kind d = K256 -> n_keys d = [] -> n_children d = replicate 256 None ->
  exists C', fill256 d n (seq 0 256) = Ok (set_children d C') /\ enc (set_arr d [] C' (n_nch n)) es.
Proof.
  intros He Hk Hd HdK HdC.
  destruct (fill256_spec n es He Hk 256 0 d Hd) as (C' & E & HC1 & HC2).
  - rewrite HdC. apply replicate_length.
  - lia.
  - intros; lia.
  - intros. rewrite HdC. by apply lookup_replicate_2.
  - exists C'. split; [done|]. pose proof He as [Hso Hby Hnc Hkl Hcl Hca Hsh]. rewrite Hk in Hca. cbn in Hca.
    split; cbn -[u8 length]; rewrite ?Hd; try done. cbn. lia.
Qed.

(** ** Shrinking *)
(** 48 -> 16 *)
Lemma below_S_split es j : ssorted es ->
  exists l1 l2, es = l1 ++ l2 /\ below j l1 /\ Forall (fun e => j <= e.1) l2.
Proof.
  induction es as [|[x a] es IH]; cbn; [intros _; exists [], []; split_and!; constructor|].
  intros [Ha Hs]. destruct (decide (x < j)).
  - destruct (IH Hs) as (l1 & l2 & -> & ? & ?). exists ((x, a) :: l1), l2. split_and!; [done|by constructor|done].
  - exists [], ((x, a) :: es). split_and!; [done|constructor|]. constructor; [cbn; lia|].
    eapply Forall_impl; [exact Ha|]. cbn. intros; lia.
Qed.
Lemma fill16_spec src : n_kind src = K48 ->
  forall m j d l1 l2, enc src (l1 ++ l2) -> n_kind d = K16 -> j + m = 256 ->
  below j l1 -> Forall (fun e => j <= e.1) l2 -> length (l1 ++ l2) <= 16 ->
  n_keys d = l1.*1 ++ replicate (16 - length l1) 0 -> n_children d = (Some <$> l1.*2) ++ replicate (16 - length l1) None ->
  fill16 d src (length l1) (seq j m) =
    Ok (set_children (set_keys d ((l1 ++ l2).*1 ++ replicate (16 - length (l1 ++ l2)) 0))
                     ((Some <$> (l1 ++ l2).*2) ++ replicate (16 - length (l1 ++ l2)) None)).
Proof.
  intros Hks. induction m as [|m IH]; intros j d l1 l2 He Hkd Hj H1 H2 Hlen HK HC.
  - cbn. assert (l2 = []) as ->.
    { destruct l2 as [|e l2]; [done|]. exfalso. apply Forall_cons in H2 as [? _].
      pose proof (enc_byte _ _ He) as Hy. rewrite Forall_app, Forall_cons in Hy. lia. }
    rewrite !app_nil_r in *. rewrite <- HK, <- HC. by destruct d.
  - cbn [seq fill16]. pose proof He as [Hso Hby Hnc Hkl Hcl Hca Hsh]. rewrite Hks in Hca, Hsh, Hkl, Hcl. cbn in Hca, Hkl, Hcl.
    destruct Hsh as (Hs1 & _ & _). specialize (Hs1 j ltac:(lia)).
    unfold getKeyAtIdx. rewrite Hks. destruct (alook (l1 ++ l2) j) as [a|] eqn:Ea.
    + rewrite alook_app, alook_below in Ea by done.
      destruct l2 as [|[x a'] l2]; [done|]. apply Forall_cons in H2 as [Hx H2]. cbn in Hx.
      assert (Hxj : x = j /\ a' = a).
      { cbn in Ea. destruct (Nat.eqb_spec x j); [split; [done|congruence]|]. exfalso.
        apply alook_Some_elem in Ea. apply ssorted_app in Hso as (_ & [Hso _] & _). cbn in Hso.
        unfold above in Hso. rewrite Forall_forall in Hso. specialize (Hso _ Ea). cbn in Hso. lia. }
      destruct Hxj as [-> ->].
      destruct Hs1 as (i & Hi1 & Hi2). rewrite Hi1. cbn [obind]. replace (S i =? 0) with false by done.
      unfold setKeyAtIdx. rewrite Hkd. rewrite app_length in Hlen. cbn [length] in Hlen.
      assert (HKl : length l1 < length (n_keys d)) by (rewrite HK, app_length, fmap_length, replicate_length; lia).
      rewrite (proj2 (Nat.ltb_lt _ _) HKl). cbn [obind].
      unfold getChild. rewrite Hks. replace (S i - 1) with i by lia. rewrite Hi2. cbn [obind].
      unfold setChildN. cbn [n_children set_keys].
      assert (HCl : length l1 < length (n_children d)) by (rewrite HC, app_length, !fmap_length, replicate_length; lia).
      rewrite (proj2 (Nat.ltb_lt _ _) HCl). cbn [obind].
      assert (E : l1 ++ (j, a) :: l2 = (l1 ++ [(j, a)]) ++ l2) by (by rewrite <- app_assoc).
      pose proof (ssorted_middle _ _ _ _ Hso) as (Hq1 & Hq2 & _).
      replace (length l1 + 1) with (length (l1 ++ [(j, a)])) by (by rewrite app_length).
      rewrite (IH (S j) _ (l1 ++ [(j, a)]) l2).
      * rewrite E. done.
      * by rewrite <- E.
      * done.
      * lia.
      * apply Forall_app. split; [eapply Forall_impl; [exact H1|cbn; intros; lia]|constructor; [cbn; lia|done]].
      * eapply Forall_impl; [exact Hq2|cbn; intros; lia].
      * rewrite <- E, app_length. cbn. lia.
      * cbn [n_keys set_keys set_children]. rewrite HK. rewrite insert_app_r_alt by (rewrite fmap_length; lia).
        rewrite fmap_length, Nat.sub_diag, fmap_app, app_length. cbn [length].
        replace (16 - length l1) with (S (16 - (length l1 + 1))) by lia. cbn. by rewrite <- app_assoc.
      * cbn [n_children set_keys set_children]. rewrite HC. rewrite insert_app_r_alt by (rewrite !fmap_length; lia).
        rewrite !fmap_length, Nat.sub_diag, !fmap_app, app_length. cbn [length].
        replace (16 - length l1) with (S (16 - (length l1 + 1))) by lia. cbn. by rewrite <- app_assoc.
    + rewrite Hs1. cbn [obind]. replace (0 =? 0) with true by done.
      apply IH; try done; [lia|eapply Forall_impl; [exact H1|cbn; intros; lia]|].
      apply Forall_forall. intros e Hin. rewrite Forall_forall in H2. specialize (H2 e Hin).
      destruct (decide (e.1 = j)) as [Heq|]; [|lia]. exfalso. apply alook_None in Ea. apply Ea. rewrite <- Heq.
      apply elem_of_list_fmap_1. apply elem_of_app. by right.
Qed.
Lemma shrink48_spec n es d : enc n es -> n_kind n = K48 -> length es = 12 -> n_kind d = K16 -> n_keys d = replicate 16 0 -> n_children d = replicate 16 None ->
  exists K C, fill16 d n 0 (seq 0 256) = Ok (set_children (set_keys d K) C) /\ enc (set_arr d K C (n_nch n)) es /\
    stale (set_arr d K C (n_nch n)) = [].
Proof.
  intros He Hk Hl Hd HdK HdC.
  pose proof (fill16_spec n Hk 256 0 d [] es He Hd ltac:(lia)) as E.
  cbn [length] in E. rewrite E; [|constructor|apply Forall_forall; intros; lia|cbn; lia|by rewrite HdK|by rewrite HdC].
  eexists _, _. split; [reflexivity|]. cbn [app].
  pose proof He as [Hso Hby Hnc Hkl Hcl Hca Hsh].
  match goal with |- enc ?x _ /\ _ =>
    destruct (enc_mk_sorted x es (replicate (16 - length es) 0) (replicate (16 - length es) None)) as [He' Hst'] end;
    cbn; rewrite ?Hd, ?replicate_length; cbn; try done.
  - rewrite Hnc, u8_small; [done|lia].
  - lia.
  - split; [done|]. rewrite Hst'. generalize (16 - length es). by induction n0.
Qed.

(** 256 -> 48 *)
Lemma fill48from256_spec src : n_kind src = K256 ->
  forall m j d l1 l2, enc src (l1 ++ l2) -> n_kind d = K48 -> j + m = 256 ->
  below j l1 -> Forall (fun e => j <= e.1) l2 -> length (l1 ++ l2) <= 48 ->
  length (n_keys d) = 256 ->
  (forall i e, l1 !! i = Some e -> n_keys d !! e.1 = Some (S i)) ->
  (forall b x, n_keys d !! b = Some x -> x = 0 \/ exists i e, l1 !! i = Some e /\ e.1 = b /\ x = S i) ->
  n_children d = (Some <$> l1.*2) ++ replicate (48 - length l1) None ->
  exists K, fill48from256 d src (length l1) (seq j m) =
      Ok (set_children (set_keys d K) ((Some <$> (l1 ++ l2).*2) ++ replicate (48 - length (l1 ++ l2)) None)) /\
    length K = 256 /\
    (forall i e, (l1 ++ l2) !! i = Some e -> K !! e.1 = Some (S i)) /\
    (forall b x, K !! b = Some x -> x = 0 \/ exists i e, (l1 ++ l2) !! i = Some e /\ e.1 = b /\ x = S i).
Proof.
  intros Hks. induction m as [|m IH]; intros j d l1 l2 He Hkd Hj H1 H2 Hlen HKl HK1 HK2 HC.
  - cbn. assert (l2 = []) as ->.
    { destruct l2 as [|e l2]; [done|]. exfalso. apply Forall_cons in H2 as [? _].
      pose proof (enc_byte _ _ He) as Hy. rewrite Forall_app, Forall_cons in Hy. lia. }
    rewrite !app_nil_r in *. exists (n_keys d). rewrite <- HC. split; [by destruct d|]. done.
  - cbn [seq fill48from256]. pose proof He as [Hso Hby Hnc Hkl Hcl Hca Hsh]. rewrite Hks in Hsh.
    specialize (Hsh j ltac:(lia)). unfold getChild. rewrite Hks, Hsh. cbn [default obind].
    destruct (alook (l1 ++ l2) j) as [a|] eqn:Ea.
    + rewrite alook_app, alook_below in Ea by done.
      destruct l2 as [|[x a'] l2]; [done|]. apply Forall_cons in H2 as [Hx H2]. cbn in Hx.
      assert (Hxj : x = j /\ a' = a).
      { cbn in Ea. destruct (Nat.eqb_spec x j); [split; [done|congruence]|]. exfalso.
        apply alook_Some_elem in Ea. apply ssorted_app in Hso as (_ & [Hso _] & _). cbn in Hso.
        unfold above in Hso. rewrite Forall_forall in Hso. specialize (Hso _ Ea). cbn in Hso. lia. }
      destruct Hxj as [-> ->].
      rewrite app_length in Hlen. cbn [length] in Hlen.
      assert (HCl : length l1 < length (n_children d)) by (rewrite HC, app_length, !fmap_length, replicate_length; lia).
      unfold setChildN. rewrite (proj2 (Nat.ltb_lt _ _) HCl). cbn [obind].
      unfold setKeyAtIdx. cbn [n_kind n_keys set_children]. rewrite Hkd, HKl.
      replace (j <? 256) with true by (symmetry; apply Nat.ltb_lt; lia). cbn [obind].
      rewrite u8_small by lia.
      assert (E : l1 ++ (j, a) :: l2 = (l1 ++ [(j, a)]) ++ l2) by (by rewrite <- app_assoc).
      pose proof (ssorted_middle _ _ _ _ Hso) as (Hq1 & Hq2 & _).
      replace (length l1 + 1) with (length (l1 ++ [(j, a)])) by (by rewrite app_length).
      destruct (IH (S j) (set_keys (set_children d (<[length l1:=Some a]> (n_children d))) (<[j:=length (l1 ++ [(j, a)])]> (n_keys d)))
                  (l1 ++ [(j, a)]) l2) as (K & EK & HKK).
      * by rewrite <- E.
      * done.
      * lia.
      * apply Forall_app. split; [eapply Forall_impl; [exact H1|cbn; intros; lia]|constructor; [cbn; lia|done]].
      * eapply Forall_impl; [exact Hq2|cbn; intros; lia].
      * rewrite <- E, app_length. cbn. lia.
      * cbn. by rewrite insert_length.
      * cbn. intros i e Hi. apply lookup_app_Some in Hi as [Hi|[Hi1 Hi2]].
        -- rewrite list_lookup_insert_ne; [by apply HK1|]. intros Heq. unfold below in H1. rewrite Forall_forall in H1.
           specialize (H1 e (elem_of_list_lookup_2 _ _ _ Hi)). lia.
        -- apply list_lookup_singleton_Some in Hi2 as [Hi2 <-]. cbn. rewrite list_lookup_insert by lia.
           rewrite app_length. cbn. f_equal. lia.
      * cbn. intros b x Hbx. destruct (decide (b = j)) as [->|].
        -- rewrite list_lookup_insert in Hbx by lia. injection Hbx as <-. right. exists (length l1), (j, a).
           split_and!; [by apply list_lookup_middle|done|rewrite app_length; cbn; lia].
        -- rewrite list_lookup_insert_ne in Hbx by done. destruct (HK2 b x Hbx) as [?|(i & e & ? & ? & ?)]; [by left|].
           right. exists i, e. split_and!; [by apply lookup_app_l_Some|done..].
      * cbn [n_children set_keys set_children]. rewrite HC. rewrite insert_app_r_alt by (rewrite !fmap_length; lia).
        rewrite !fmap_length, Nat.sub_diag, !fmap_app, app_length. cbn [length].
        replace (48 - length l1) with (S (48 - (length l1 + 1))) by lia. cbn. by rewrite <- app_assoc.
      * exists K. rewrite E. split; [|done]. etransitivity; [|etransitivity; [exact EK|done]].
        replace (length l1 + 1) with (length (l1 ++ [(j, a)])) by (by rewrite app_length). done.
    + apply IH; try done; [lia|eapply Forall_impl; [exact H1|cbn; intros; lia]|].
      apply Forall_forall. intros e Hin. rewrite Forall_forall in H2. specialize (H2 e Hin).
      destruct (decide (e.1 = j)) as [Heq|]; [|lia]. exfalso. apply alook_None in Ea. apply Ea. rewrite <- Heq.
      apply elem_of_list_fmap_1. apply elem_of_app. by right.
Qed.
Lemma shrink256_spec n es d : enc n es -> n_kind n = K256 -> length es = 37 -> n_kind d = K48 -> n_keys d = replicate 256 0 -> n_children d = replicate 48 None ->
  exists K C, fill48from256 d n 0 (seq 0 256) = Ok (set_children (set_keys d K) C) /\ enc (set_arr d K C (n_nch n)) es.
Proof.
  intros He Hk Hl Hd HdK HdC.
  pose proof He as [Hso Hby Hnc Hkl Hcl Hca Hsh].
  destruct (fill48from256_spec n Hk 256 0 d [] es He Hd ltac:(lia)) as (K & E & HKl & HK2 & HK3).
  - constructor.
  - apply Forall_forall; intros; lia.
  - cbn; lia.
  - rewrite HdK. apply replicate_length.
  - done.
  - intros b x Hx. rewrite HdK in Hx. apply lookup_replicate in Hx as [-> _]. by left.
  - by rewrite HdC.
  - cbn [length app] in *. eexists K, _. split; [exact E|].
    set (C := (Some <$> es.*2) ++ replicate (48 - length es) None).
    split; cbn -[u8 length]; rewrite ?Hd; try done.
    + unfold C. rewrite app_length, !fmap_length, replicate_length. cbn. lia.
    + cbn. lia.
    + split_and!.
      * intros b Hb. destruct (alook es b) as [a|] eqn:Ea.
        -- apply alook_Some_elem, elem_of_list_lookup in Ea as [i Hi]. exists i. split.
           ++ apply (HK2 i (b, a)); done.
           ++ unfold C. rewrite lookup_app_l by (rewrite !fmap_length; by eapply lookup_lt_Some). by rewrite !list_lookup_fmap, Hi.
        -- destruct (lookup_lt_is_Some_2 K b ltac:(lia)) as [x Hx]. rewrite Hx. f_equal.
           destruct (HK3 b x Hx) as [?|(i & e & Hi & Heb & _)]; [done|]. exfalso.
           apply alook_None in Ea. apply Ea. rewrite <- Heb. apply elem_of_list_fmap_1. by eapply elem_of_list_lookup_2.
      * intros b b' i Hb Hb'. destruct (HK3 b _ Hb) as [?|(i1 & e1 & He1 & <- & [= <-])]; [done|].
        destruct (HK3 b' _ Hb') as [?|(i2 & e2 & He2 & <- & [= <-])]; [done|]. congruence.
      * intros i a Hia. unfold C in Hia. assert (Hi : i < length es).
        { destruct (decide (i < length es)); [done|]. rewrite lookup_app_r in Hia by (rewrite !fmap_length; lia).
          by apply lookup_replicate in Hia as [? _]. }
        destruct (lookup_lt_is_Some_2 es i Hi) as [e Hie]. exists e.1. by apply HK2.
Qed.
