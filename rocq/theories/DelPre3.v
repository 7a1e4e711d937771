(** DeletePrefix: the compaction of a Node4 or Node16, and the induction. *)
From Verif Require Export DelPre2.
From stdpp Require Export list.
Local Open Scope nat_scope.

Lemma ssorted_zip (es : entries) ka : ssorted es -> ssorted (zip es.*1 ka).
Proof.
  revert ka. induction es as [|e es IH]; intros [|c ka]; cbn; try done. intros [Ha Hs]. split; [|by apply IH].
  clear -Ha. unfold above in *. revert ka. induction es as [|e' es IH]; intros [|c ka]; cbn; try constructor.
  - apply Forall_cons in Ha as [? _]. done.
  - apply Forall_cons in Ha as [_ Ha]. by apply IH.
Qed.
Lemma compact_enc n n3 (es : entries) ka : enc n es -> sortedkind (n_kind n) = true -> n_kind n3 = n_kind n -> n_keys n3 = n_keys n ->
  length ka <= length es -> n_nch n3 = u8 (length ka) -> length (n_children n3) = cap_of (n_kind n) -> take (length ka) (n_children n3) = Some <$> ka ->
  enc n3 (zip es.*1 ka).
Proof.
  intros [Hso Hby Hnc Hkl Hcl Hca Hsh] Hk Ek Eks Hle Hn Hc Ht.
  assert (Hlen : length (zip es.*1 ka) = length ka) by (rewrite zip_with_length, fmap_length; lia).
  assert (Hfst : (zip es.*1 ka).*1 = take (length ka) es.*1).
  { clear -Hle. revert ka Hle. induction es as [|e es IH]; intros [|c ka] Hle; cbn in *; try done; try lia. f_equal. apply IH. lia. }
  split.
  - by apply ssorted_zip.
  - apply Forall_forall. intros [b c] Hin. cbn. apply (elem_of_list_fmap_1 fst) in Hin. rewrite Hfst in Hin. cbn in Hin.
    assert (Hb : b ∈ es.*1) by (rewrite <- (take_drop (length ka) es.*1); apply elem_of_app; by left).
    apply elem_of_list_fmap in Hb as (e & -> & He). rewrite Forall_forall in Hby. by apply Hby.
  - by rewrite Hlen.
  - by rewrite Eks, Ek.
  - by rewrite Ek.
  - rewrite Hlen, Ek. lia.
  - rewrite Hlen, Ek, Eks.
    assert (Hsh' : take (length es) (n_keys n) = es.*1) by (destruct (n_kind n); try done; apply Hsh).
    assert (Hgoal : take (length ka) (n_keys n) = (zip es.*1 ka).*1 /\ take (length ka) (n_children n3) = Some <$> (zip es.*1 ka).*2).
    { split; [rewrite Hfst, <- Hsh', take_take; f_equal; lia|]. rewrite Ht. f_equal. symmetry. apply snd_zip. rewrite fmap_length. lia. }
    destruct (n_kind n); done.
Qed.

(** The kept children, when every slot before has been visited. *)
Lemma keptl_lookup cs outs j : forall s len a, (forall i, s <= i -> i < s + j -> exists a, outs !! i = Some (Some (Some a))) ->
  outs !! (s + j) = Some (Some (Some a)) -> j < len -> keptl cs outs (seq s len) !! j = Some (Some a).
Proof.
  induction j as [|j IH]; intros s len a Hb Hj Hlt; (destruct len as [|len]; [lia|]); cbn [seq keptl List.map concat]; unfold kept1 at 1.
  - rewrite Nat.add_0_r in Hj. rewrite Hj. done.
  - destruct (Hb s ltac:(lia) ltac:(lia)) as [a0 ->]. cbn [app lookup list_lookup]. apply IH; [|by rewrite Nat.add_succ_comm|lia].
    intros i H1 H2. apply Hb; lia.
Qed.
Lemma keptl_some cs outs is_ : (forall i, i ∈ is_ -> exists o, outs !! i = Some (Some o)) -> exists ka, keptl cs outs is_ = Some <$> ka /\ length ka <= length is_.
Proof.
  induction is_ as [|i is_ IH]; intros Hi; [by exists []|]. destruct IH as (ka & E & Hle); [intros; apply Hi; by right|].
  unfold keptl. cbn [List.map concat]. fold (keptl cs outs is_). rewrite E. unfold kept1. destruct (Hi i ltac:(left)) as [[a|] ->].
  - exists (a :: ka). cbn. split; [done|lia].
  - exists ka. cbn. split; [done|lia].
Qed.

Lemma prefix_snoc_inv {A} (q P : list A) b : q `prefix_of` (P ++ [b]) -> q = P ++ [b] \/ q `prefix_of` P.
Proof.
  intros [x E]. destruct x as [|y x _] using rev_ind; [left; by rewrite app_nil_r in E|]. right. rewrite app_assoc in E.
  apply app_inj_tail in E as [-> _]. by exists x.
Qed.
Lemma plt_asym x y : plt x y -> plt y x -> False.
Proof.
  intros (P & b & b' & Hb & [x1 E1] & [y1 E2]) (Q & c & c' & Hc & [y2 E3] & [x2 E4]). subst x y.
  revert Q E3 E4. induction P as [|p P IH]; intros [|q Q]; cbn; intros E3 E4; injection E3 as E3 E3'; injection E4 as E4 E4'; try lia; eauto.
Qed.

Section DelPre3.
Context {V : Type} `{GoZero V}.
Notation art := (art V).
Notation TM := (M (st V)).
Notation nd s := (h_nodes (s_h s)).
Notation lv s := (h_leaves (s_h s)).
Notation nx s := (h_next (s_h s)).

Lemma roots_inj a pre lf (kids : list (nat * art)) t t' : NoDup (fp (Art a pre lf kids)) -> t ∈ kids.*2 -> t' ∈ kids.*2 -> aroot t = aroot t' -> t = t'.
Proof.
  intros Hnd Ht Ht' E. apply roots_NoDup in Hnd. unfold ents in Hnd. rewrite <- list_fmap_compose in Hnd.
  apply elem_of_list_lookup in Ht as [i Hi], Ht' as [j Hj]. rewrite list_lookup_fmap in Hi, Hj.
  destruct (kids !! i) as [[b1 t1]|] eqn:E1; [|done]. destruct (kids !! j) as [[b2 t2]|] eqn:E2; [|done]. cbn in Hi, Hj. injection Hi as ->. injection Hj as ->.
  assert (i = j) as ->; [|congruence]. eapply NoDup_lookup; [exact Hnd|rewrite list_lookup_fmap, E1; done|rewrite list_lookup_fmap, E2; cbn; congruence].
Qed.

Lemma slot_sorted a pre lf (kids : list (nat * art)) n slots i b t : NoDup (fp (Art a pre lf kids)) -> enc n (ents kids) -> sortedkind (n_kind n) = true ->
  chs_of slots = n_children n -> kts slots ≡ₚ kids.*2 -> kids !! i = Some (b, t) -> slots !! i = Some (Some t).
Proof.
  intros Hnd He Hk Hch Hp Hi. destruct (enc_sorted_dec _ _ He Hk) as (R & R' & _ & HC & _). assert (Hci : n_children n !! i = Some (Some (aroot t))).
  { rewrite HC. apply lookup_app_l_Some. rewrite !list_lookup_fmap. unfold ents. rewrite list_lookup_fmap, Hi. done. }
  rewrite <- Hch in Hci. unfold chs_of in Hci. rewrite List.map_map || idtac.
  change (List.map (option_map aroot) slots) with ((option_map aroot) <$> slots) in Hci. rewrite list_lookup_fmap in Hci.
  destruct (slots !! i) as [[t'|]|] eqn:E; [|done..]. cbn in Hci. injection Hci as Hci. do 2 f_equal.
  apply (roots_inj a pre lf kids); [done| | |done].
  - rewrite <- Hp. apply elem_kts. by eapply elem_of_list_lookup_2.
  - apply elem_of_list_fmap. exists (b, t). split; [done|]. by eapply elem_of_list_lookup_2.
Qed.
Lemma slot_at (slots : list (option art)) n i c : chs_of slots = n_children n -> n_children n !! i = Some (Some c) -> exists t, slots !! i = Some (Some t) /\ aroot t = c.
Proof.
  intros <- Hi. unfold chs_of in Hi. change (List.map (option_map aroot) slots) with ((option_map aroot) <$> slots) in Hi. rewrite list_lookup_fmap in Hi.
  destruct (slots !! i) as [[t'|]|] eqn:E; [|done..]. cbn in Hi. injection Hi as <-. eauto.
Qed.

(** A path through a node of a represented tree. *)
Lemma rep_pathok (h : heap V) p a pre lf kids n k x c : rep h p (Art a pre lf kids) -> h_nodes h !! a = Some n -> kids <> [] -> k = p ++ pre ++ c :: x ->
  forall n3, n_plen n3 = n_plen n -> n_partial n3 = n_partial n -> pathok n3 k (length p) c.
Proof.
  intros Hr Hn Hne -> n3 E1 E2. apply rep_inv in Hr as (n' & Hn' & Hlt & He & Hpl & Hlf & Hk1 & _). assert (n' = n) as -> by congruence.
  destruct (Hk1 Hne) as (Hpn & Hpt & _). split.
  - intros _. rewrite E1, E2, Hpn. by apply checkPrefix_match.
  - rewrite E1, Hpn. rewrite lookup_app_r by lia. rewrite lookup_app_r by lia. by replace (length p + length pre - length p - length pre) with 0 by lia.
Qed.

(** A stored key below a child's byte is in that child. *)
Lemma kid_of_prefix (h : heap V) p a pre lf kids b t k v : rep h p (Art a pre lf kids) -> (b, t) ∈ kids -> (k, v) ∈ leaves (Art a pre lf kids) ->
  (p ++ pre ++ [b]) `prefix_of` k -> (k, v) ∈ leaves t.
Proof.
  intros Hr Hbt Hkv Pk. pose proof Hr as Hr0. apply elem_leaves in Hkv as [[la El]|(b2 & t2 & Hbt2 & Hk2)].
  - exfalso. apply rep_inv in Hr as (n & Hn & Hlt & He & Hpl & Hlf & Hk1 & _ & Hk3 & _). destruct (Hk3 _ _ _ El) as [_ Hk3'].
    destruct Hk3' as [-> Hd]; [intros ->; by apply elem_of_nil in Hbt|]. destruct Pk as [y Ey]. rewrite <- !app_assoc in Ey. apply app_inv_head, app_inv_head in Ey.
    injection Ey as <- _. apply Hd. apply elem_of_list_fmap. by exists (dollar, t).
  - pose proof (rep_leaves_kid _ _ _ _ _ _ _ _ _ _ Hr0 Hbt2 Hk2) as Pk2'.
    destruct Pk as [y ->], Pk2' as [y' Ey]. rewrite <- !app_assoc in Ey. apply app_inv_head, app_inv_head in Ey. injection Ey as <- _.
    by rewrite (kids_unique _ b t2 t (rep_sorted _ _ _ _ _ _ Hr0) Hbt2 Hbt) in Hk2.
Qed.
(** No removed slot precedes the one that leads to a safe key. *)
Lemma safe_before (h : heap V) p a pre lf kids key k v i j b t b1 t1 k1 v1 : rep h p (Art a pre lf kids) ->
  kids !! j = Some (b, t) -> (k, v) ∈ leaves t -> kids !! i = Some (b1, t1) -> leaves t1 = [(k1, v1)] -> hit key k1 = true -> i < j ->
  safe key (Art a pre lf kids) k -> False.
Proof.
  intros Hr Hj Hkv Hi Hl1 Hh Hij Hsafe. pose proof Hr as Hr0.
  apply elem_of_list_lookup_2 in Hi as Hi', Hj as Hj'.
  assert (Hin1 : (k1, v1) ∈ leaves t1) by (rewrite Hl1; left).
  pose proof (rep_leaves_kid _ _ _ _ _ _ _ _ _ _ Hr Hj' Hkv) as Pk. pose proof (rep_leaves_kid _ _ _ _ _ _ _ _ _ _ Hr Hi' Hin1) as Pk1.
  assert (Hb : b1 < b).
  { apply rep_inv in Hr as (n & Hn & Hlt & He & _). pose proof (enc_sorted _ _ He) as Hs.
    rewrite <- (take_drop_middle _ _ _ Hj) in Hs. unfold ents in Hs. rewrite fmap_app, fmap_cons in Hs. apply ssorted_middle in Hs as (Hbel & _).
    unfold below in Hbel. rewrite Forall_forall in Hbel. apply (Hbel (b1, aroot t1)). apply elem_of_list_fmap. exists (b1, t1). split; [done|].
    apply (elem_of_list_lookup_2 _ i). rewrite lookup_take by done. done. }
  destruct (Hsafe k1 v1) as [Hp|(k2 & v2 & q & Hk2 & Hne & Hq1 & Hq2 & Hqn)].
  - apply elem_leaves. right. eauto.
  - done.
  - eapply plt_asym; [exact Hp|]. exists (p ++ pre), b1, b. split; [done|]. by rewrite <- !app_assoc.
  - assert (Hpq : (p ++ pre ++ [b1]) `prefix_of` q).
    { destruct (prefix_weak_total _ _ _ Pk1 Hq1) as [|Hqp]; [done|].
      rewrite app_assoc in Hqp. destruct (prefix_snoc_inv _ _ _ Hqp) as [->|Hqp']; [by rewrite app_assoc|].
      exfalso. apply Hqn. etrans; [exact Hqp'|]. etrans; [|exact Pk]. exists [b]. by rewrite app_assoc. }
    assert (Pk2 : (p ++ pre ++ [b1]) `prefix_of` k2) by (by etrans).
    pose proof (kid_of_prefix _ _ _ _ _ _ b1 t1 k2 v2 Hr0 Hi' Hk2 Pk2) as Hk2'. rewrite Hl1 in Hk2'. apply elem_of_list_singleton in Hk2'. congruence.
Qed.

(** The kept children of a node, with what can be iterated below them. *)
Lemma kept_cov key cs outs (h : heap V) F : forall (ts : list art) s,
  (forall i t, ts !! i = Some t -> exists o, outs !! (s + i) = Some (Some o) /\
     match o with None => prune (hit key) t = [] | Some c => exists sz, sz <= length (fp t) /\ cov h F sz c (prune (hit key) t) end) ->
  exists xs : list (addr * nat * list (bytes * V)), keptl cs outs (seq s (length ts)) = (fun x => Some x.1.1) <$> xs /\
    (forall x, x ∈ xs -> cov h F x.1.2 x.1.1 x.2) /\ sum_list xs.*1.*2 <= length (concat (List.map fp ts)) /\
    concat xs.*2 = concat (List.map (prune (hit key)) ts).
Proof.
  induction ts as [|t ts IH]; intros s Ho; cbn [length seq].
  { exists []. split; [done|]. split; [intros x Hx; by apply elem_of_nil in Hx|]. split; [cbn; lia|done]. }
  destruct (IH (S s)) as (xs & E & Hc & Hs & El).
  { intros i t' Hi. destruct (Ho (S i) t' Hi) as (o & Hoi & Hx). exists o. split; [|done]. by rewrite <- Hoi, Nat.add_succ_comm. }
  destruct (Ho 0 t eq_refl) as (o & Hoi & Hx). rewrite Nat.add_0_r in Hoi. unfold keptl. cbn [List.map concat]. fold (keptl cs outs (seq (S s) (length ts))). rewrite E.
  unfold kept1. rewrite Hoi. destruct o as [c|].
  - destruct Hx as (sz & Hsz & Hcv). exists ((c, sz, prune (hit key) t) :: xs). split; [done|]. split; [|split].
    + intros x Hx. apply elem_of_cons in Hx as [->|Hx]; [done|by apply Hc].
    + cbn. rewrite app_length. lia.
    + cbn. by rewrite El.
  - exists xs. split; [done|]. split; [done|]. split; [cbn; rewrite app_length; lia|]. by rewrite Hx.
Qed.
Lemma fps_kfp (kids : list (nat * art)) : concat (List.map fp kids.*2) = kfp kids.
Proof. induction kids as [|[b t] kids IH]; [done|]. cbn. by rewrite IH. Qed.

Lemma dp_tip key (s : st V) p a pre lf n : rep (s_h s) p (Art a pre lf []) -> nd s !! a = Some n -> cleanT s (Art a pre lf []) ->
  forall la k v, lf = Some (la, k, v) -> hit key k = false -> post key s (Art a pre lf []) (Some a, 0) s.
Proof.
  intros Hr Hn Hcl la k v -> Hh. pose proof Hr as Hr0.
  apply rep_inv in Hr as (n' & Hn' & Hlt & He & Hpl & Hlf & Hk1 & Hk2 & Hk3 & Hst & Hkids). assert (n' = n) as -> by congruence.
  destruct Hlf as (Enl & Hlal & l & Hl & Elk & Elv).
  assert (HF : forall x, x ∈ fp (Art a pre (Some (la, k, v)) []) -> FP s (fp (Art a pre (Some (la, k, v)) [])) s x).
  { intros x Hx. split; [by left|]. by eapply rep_fp. }
  assert (Fa : FP s (fp (Art a pre (Some (la, k, v)) [])) s a) by (apply HF; left).
  assert (Fla : FP s (fp (Art a pre (Some (la, k, v)) [])) s la) by (apply HF; right; left).
  split; [rewrite pc_eq, Hh; done|]. split; [apply upd_refl|]. cbn [fst res]. split.
  - apply (wt_node _ _ _ a n); [done|done|eapply enc_wfn; [exact He|done|cbn; lia]|..].
    + intros la' E. assert (la' = la) as -> by congruence. split; [done|]. exists l. split; [done|]. subst k v. split; [left|]. congruence.
    + intros c Hc. exfalso. destruct (enc_children_elem _ _ _ He Hc) as [Hx|Hx]; [by apply elem_of_nil in Hx|].
      rewrite (Hcl a n) in Hx; [by apply elem_of_nil in Hx|left|done].
  - split.
    2:{ intros _. exists 1. split; [rewrite fp_eq; cbn; lia|]. cbn [prune lfl]. rewrite filter_cons_True, filter_nil by done.
      apply (cov_node _ _ a n (Some (la, k, v)) []); [done|done|by split; [|exists l]|by intros x ->%elem_of_list_singleton|by rewrite (enc_iterChildren _ _ He)|congruence|intros x Hx; by apply elem_of_nil in Hx]. }
    intros _ p' k' v' Hr' Hkv _ _. apply elem_of_list_singleton in Hkv as [= -> ->].
    eapply fnd_own; [done|done|done|done|done|done|done|]. left. rewrite (rep_isLeaf _ _ _ _ _ _ _ Hr0 Hn). by apply bool_decide_true.
Qed.

Lemma dp_main key fuel : dpP (V:=V) key fuel.
Proof.
  induction fuel as [|fuel IH]; intros s p [a pre lf kids] depth Hr Hnd Hcl Hroom Hf; [rewrite fp_eq in Hf; cbn in Hf; lia|].
  pose proof Hr as Hr0. pose proof (room_kids _ _ _ _ _ _ Hr (Hroom _)) as H256.
  apply rep_inv in Hr as (n & Hn & Hlt & He & Hpl & Hlf & Hk1 & Hk2 & Hk3 & Hst & Hkids).
  set (t := Art a pre lf kids) in *. cbn [edeletePrefix aroot]. apply wp_bind. eapply wp_loadN; [exact Hn|].
  rewrite (rep_isLeaf _ _ _ _ _ _ _ Hr0 Hn). destruct (decide (kids = [])) as [Ek|Hne].
  { rewrite bool_decide_true by done. destruct (Hk2 Ek) as (la & k & v & -> & _). destruct Hlf as (Enl & Hlal & l & Hl & Elk & Elv).
    rewrite Enl. apply wp_bind. eapply wp_loadL; [exact Hl|]. rewrite Elk. change (has_prefix (getKey k) (getKey key)) with (hit key k). destruct (hit key k) eqn:Eh.
    - apply wp_ret. subst kids. split; [unfold t; rewrite pc_eq, Eh; done|]. split; [apply upd_refl|]. cbn [fst res]. split; [by exists k, v|]. unfold t. cbn [prune lfl]. rewrite filter_cons_False, filter_nil; [done|]. cbn. congruence.
    - apply wp_ret. subst kids. unfold t in *. by eapply dp_tip. }
  rewrite bool_decide_false by done.
  eapply (wp_use _ _ (fun _ s' => s' = s)).
  { destruct (Nat.ltb 0 (n_plen n)); [|done]. apply wp_bind. eapply wp_lift; [by apply checkPrefix_ok|]. done. }
  intros depth' s' ->.
  set (x0 := match lf with Some (_, k, _) => if hit key k then 1 else 0 | None => 0 end).
  eapply (wp_use _ _ (fun x s' => x = x0 /\ s' = s)).
  { destruct lf as [[[la k] v]|]; [|cbn in Hlf; rewrite Hlf; done]. destruct Hlf as (Enl & Hlal & l & Hl & Elk & Elv). rewrite Enl.
    apply wp_bind. eapply wp_loadL; [exact Hl|]. rewrite Elk. unfold x0, hit. by destruct (has_prefix _ _). }
  intros ? s' [-> ->].
  assert (Hst0 : stale n = []) by (apply (Hcl a n); [left|done]).
  destruct (slots_of (n_children n) kids.*2) as (slots & Hch & Hkp).
  { etrans; [by eapply enc_clean_perm, roots_NoDup|]. unfold ents. rewrite <- !list_fmap_compose. done. }
  assert (Hkidin : forall tk, Some tk ∈ slots -> exists b, (b, tk) ∈ kids).
  { intros tk Htk. apply elem_kts in Htk. rewrite Hkp in Htk. apply elem_of_list_fmap in Htk as ([b ?] & -> & ?). eauto. }
  pose proof (kfp_perm _ _ Hkp) as Hkfp. pose proof Hnd as Hnd0. unfold t in Hnd. rewrite fp_eq in Hnd. apply NoDup_cons in Hnd as [Hani Hnd].
  apply NoDup_app in Hnd as (_ & Hlfk & Hndk).
  change (fix loop (chs : list (option addr)) (idx : nat) (m : list (nat * option addr)) (numDel : nat) {struct chs} : TM (list (nat * option addr) * nat) := _)
    with (loopP fuel key depth') || idtac.
  rewrite <- Hch.
  eapply wp_use; [apply (loop_spec key fuel depth' IH slots s 0 [] x0)|].
  { intros tk Htk. destruct (Hkidin tk Htk) as [b Hb]. split_and!; [eauto| |by eapply room_kid|].
    - intros y m Hy. apply Hcl. unfold t. rewrite fp_eq. right. apply elem_of_app. right. apply elem_kfp. eauto.
    - unfold t in Hf. pose proof (kid_fp_lt a b tk kids lf pre Hb). lia. }
  { by rewrite Hkfp. }
  intros r s1 (outs & -> & HU1 & Hlen & Hnone & Hsome). cbn [app].
  assert (Hsfp : forall y, y ∈ sfps slots -> y ∈ kfp kids) by (intros y; by rewrite Hkfp).
  assert (Hasf : a ∉ sfps slots) by (intros Hx; apply Hani, elem_of_app; right; by apply Hsfp).
  assert (Hn1 : nd s1 !! a = Some n) by (eapply upd_node; [exact HU1|done..]). pose proof (upd_next _ _ _ HU1) as N1.
  change (aroot t) with a. eapply wp_use; [apply (ewriteNode_spec s1 a n); [exact Hn1|done|lia]|].
  intros a2 s2 (n2 & Hn2 & Hsame & Ha2 & Ha2' & HU2 & Hlv2). pose proof (upd_next _ _ _ HU2) as N2.
  destruct Hsame as (S1 & S2 & S3 & S4 & S5 & S6 & S7).
  apply wp_bind. eapply wp_loadN; [exact Hn2|].
  assert (Hnch : n_nch n = length kids).
  { rewrite (enc_nch _ _ He). unfold ents. rewrite fmap_length. by apply u8_small. }
  assert (Hcap : length kids <= length (n_children n)).
  { rewrite (enc_clen _ _ He). etrans; [|exact (enc_cap _ _ He)]. unfold ents. by rewrite fmap_length. }
  destruct (compact_spec outs n2 (n_nch n2) 0 n2 0 0) as (C & EC & HC1 & HC2 & HC3); [done|done|done|done|rewrite S3, S6; lia|].
  cbn [plus] in EC, HC2, HC3. rewrite take_0 in HC2. cbn [app] in HC2.
  set (K := keptl (n_children n2) outs (seq 0 (n_nch n2))) in *.
  apply wp_bind. eapply wp_lift; [exact EC|]. cbn [n_children set_children].
  set (n3 := set_nch _ _). apply wp_bind, wp_storeN, wp_ret. set (s3 := stN s2 a2 n3).
  assert (Hch3 : n_children n3 = K ++ replicate (length C - length K) None) by (unfold n3, clear_from; cbn; by rewrite HC2).
  assert (HKle : length K <= length kids) by (rewrite S3, Hnch in HC3; lia).
  assert (Hnch3 : n_nch n3 = length K) by (unfold n3; cbn; apply u8_small; lia).
  assert (Hkind3 : n_kind n3 = n_kind n) by done. assert (Hkeys3 : n_keys n3 = n_keys n) by done. assert (Hleaf3 : n_leaf n3 = n_leaf n) by done.
  assert (Hpl3 : n_plen n3 = n_plen n) by done. assert (Hpa3 : n_partial n3 = n_partial n) by done.
  assert (Hcl3 : length (n_children n3) = cap_of (n_kind n)).
  { rewrite Hch3, app_length, replicate_length, HC1, S6, (enc_clen _ _ He). rewrite (enc_clen _ _ He) in Hcap. lia. }
  assert (HN3 : nd s3 !! a2 = Some n3) by (unfold s3; cbn; apply lookup_insert).
  assert (Hnx3 : nx s3 = nx s2) by done.
  assert (HFk : forall y, FP s (sfps slots) s1 y -> same_cell (s_h s1) (s_h s3) y /\ FP s (fp t) s3 y).
  { intros y [Hy Hylt]. assert (Hya : y <> a2).
    { intros ->. destruct Ha2' as [->|]; [|lia]. destruct Hy; [done|lia]. }
    split.
    - destruct (upd_same _ _ _ HU2 y Hylt) as [E1 E2]; [by intros []|]. split; [|done]. unfold s3. cbn. by rewrite lookup_insert_ne.
    - split; [|rewrite Hnx3; lia]. destruct Hy as [Hy|]; [left|by right]. unfold t. rewrite fp_eq. right. apply elem_of_app. right. by apply Hsfp. }
  assert (HU3 : upd (fun y => y ∈ fp t) s s3).
  { unfold s3. eapply upd_stN; [|exact Hn2|].
    - eapply upd_trans; [eapply upd_weaken; [exact HU1|]|exact HU2|by intros ? _ []]. intros y _ Hy. unfold t. rewrite fp_eq. right. apply elem_of_app. right. by apply Hsfp.
    - destruct Ha2' as [->|]; [right; split; [left|]|left; lia]. left. rewrite Hleaf3. by symmetry. }
  assert (Hlf3 : leafrep (s_h s3) (n_leaf n3) lf).
  { rewrite Hleaf3. assert (Hlf1 : leafrep (s_h s1) (n_leaf n) lf).
    { eapply upd_leafrep; [exact HU1|exact Hlf|]. intros y Hy Hy'. by apply (Hlfk y Hy), Hsfp. }
    assert (Hlf2 : leafrep (s_h s2) (n_leaf n) lf) by (eapply upd_leafrep; [exact HU2|exact Hlf1|by intros ? _ []]). exact Hlf2. }
  assert (Fa2 : FP s (fp t) s3 a2).
  { split; [|by rewrite Hnx3]. destruct Ha2' as [->|]; [left; left|right; lia]. }
  assert (Fla : forall la k v, lf = Some (la, k, v) -> FP s (fp t) s3 la).
  { intros la k v E. assert (Hin : la ∈ fp t) by (unfold t; rewrite fp_eq, E; right; left). split; [by left|].
    assert (la < nx s) by (by eapply rep_fp). rewrite Hnx3. lia. }
  assert (Hslen : length slots = length (n_children n)) by (rewrite <- Hch; unfold chs_of; by rewrite map_length).
  split; [|split; [exact HU3|]].
  { cbn [snd]. unfold t. rewrite pc_eq, (pcs_perm _ _ _ Hkp). done. }
  cbn [fst res]. split.
  - apply (wt_node _ _ _ a2 n3); [done|done|..].
    + pose proof (enc_wfn n _ He Hpl) as (W1 & W2 & W3 & W4 & W5); [unfold ents; by rewrite fmap_length|].
      split_and!; rewrite ?Hkind3, ?Hkeys3, ?Hpa3; try done. intros _. rewrite Hnch3, <- (enc_clen _ _ He). lia.
    + intros la E. destruct lf as [[[la' k] v]|]; [|cbn in Hlf3; congruence]. destruct Hlf3 as (E' & _ & l & Hl & El1 & El2).
      assert (la' = la) as -> by congruence. split; [by eapply Fla|]. exists l. split; [done|]. subst k v. split; [apply elem_leaves; left; eauto|].
      intros _. destruct (Hk3 _ _ _ eq_refl) as [_ Hk3']. destruct (Hk3' Hne) as [Ekk Hd].
      destruct kids as [|[b tk] kids']; [done|]. destruct (rep_nonempty _ _ _ (Hkids b tk ltac:(left))) as (k2 & v2 & Hkv2).
      exists k2, v2. split; [apply elem_leaves; right; exists b, tk; split; [left|done]|].
      pose proof (rep_leaves_kid _ _ _ _ _ _ b tk _ _ Hr0 ltac:(left) Hkv2) as [y Ey]. rewrite Ekk, Ey. split.
      * intros E2. rewrite <- !app_assoc in E2. apply app_inv_head, app_inv_head in E2. injection E2 as -> _. apply Hd. left.
      * rewrite app_assoc, getKey_snoc. rewrite <- !app_assoc. apply prefix_app, prefix_app_r. done.
    + intros c Hc. rewrite Hch3 in Hc. apply elem_of_app in Hc as [Hc|Hc]; [|by apply elem_of_replicate in Hc as [? _]].
      apply keptl_elem in Hc as (i & Hi & Hc). rewrite S6 in Hc.
      assert (Hres : exists tk, slots !! i = Some (Some tk) /\ outs !! i = Some (Some (Some c))).
      { destruct Hc as [Hc|[Hc1 Hc2]].
        - apply lookup_lt_Some in Hc as Hli. rewrite Hlen in Hli. destruct (lookup_lt_is_Some_2 _ _ Hli) as [[tk|] Htk]; [by exists tk|].
          rewrite (Hnone i Htk) in Hc. done.
        - destruct (slot_at slots n i c Hch Hc2) as (tk & Htk & _). destruct (Hsome i tk Htk) as (o & Ho & _). rewrite Ho in Hc1. by destruct Hc1. }
      destruct Hres as (tk & Htk & Hc'). destruct (Hsome i tk Htk) as (o & Ho & Hres). rewrite Hc' in Ho. injection Ho as <-. destruct Hres as (Hw & _).
      destruct (Hkidin tk) as [b Hb]; [by eapply elem_of_list_lookup_2|].
      eapply wt_mono; [exact HFk| |exact Hw]. intros k v [Hs1 Hs2]. split; [apply elem_leaves; right; eauto|].
      intros Hh. destruct (Hs2 Hh) as (k2 & v2 & Hin & Hx). exists k2, v2. split; [apply elem_leaves; right; eauto|done].
  - assert (Hsort : narrowL (leaves t) -> sortedkind (n_kind n) = true) by (intros; by eapply narrow_kind).
    assert (Hslot' : sortedkind (n_kind n) = true -> forall i b tk, kids !! i = Some (b, tk) -> slots !! i = Some (Some tk)) by (intros; by eapply slot_sorted).
    split.
    2:{ intros Hnk. specialize (Hsort Hnk). specialize (Hslot' Hsort).
      destruct (kept_cov key (n_children n2) outs (s_h s3) (FP s (fp t) s3) kids.*2 0) as (xs & EK & Hxc & Hxs & Hxl).
      { intros i tk Hi. rewrite list_lookup_fmap in Hi. destruct (kids !! i) as [[b tk']|] eqn:Hb; [|done]. cbn in Hi. injection Hi as ->.
        destruct (Hsome i tk (Hslot' _ _ _ Hb)) as (o & Ho & Hres). exists o. split; [done|]. destruct o as [c|]; [|by destruct Hres].
        destruct Hres as (_ & _ & Hv). destruct Hv as (sz & Hsz & Hcv).
        { eapply narrowL_sub; [|exact Hnk]. apply elem_of_list_lookup_2 in Hb. by apply (kid_sub a pre lf kids b). }
        exists sz. split; [done|]. by eapply cov_mono; [exact HFk|]. }
      rewrite fmap_length, <- Hnch, <- S3 in EK. change (keptl (n_children n2) outs (seq 0 (n_nch n2))) with K in EK. rewrite fps_kfp in Hxs.
      exists (S (sum_list xs.*1.*2)). split; [unfold t; rewrite fp_eq; cbn; rewrite app_length; lia|].
      unfold t. rewrite prune_eq by done.
      replace (concat (List.map (fun bt => prune (hit key) bt.2) kids)) with (concat xs.*2) by (rewrite Hxl; clear; induction kids as [|[b tk] kids IH]; [done|]; cbn; by rewrite IH).
      apply (cov_node _ _ a2 n3 lf xs); [done|done|by apply leafrep_own| |..].
      - intros x Hx. destruct lf as [[[la k] v]|]; [|by apply elem_of_nil in Hx]. apply elem_of_list_singleton in Hx as ->. by eapply Fla.
      - unfold iterChildren. rewrite Hkind3, Hnch3, Hch3, take_app, EK. by destruct (n_kind n).
      - intros _. assert (Hcap0 : 0 < cap_of (n_kind n)) by (by destruct (n_kind n); cbn; lia).
        assert (E0 : n_children n3 !! 0 = Some (head xs.*1.*1)).
        { assert (Hlen0 : 0 < length (n_children n3)) by (by rewrite Hcl3). rewrite Hch3 in Hlen0 |- *. rewrite app_length, replicate_length in Hlen0.
          destruct xs as [|x xs]; [|by rewrite EK]. rewrite EK in Hlen0 |- *. apply lookup_replicate. split; [done|]. cbn [fmap list_fmap length] in Hlen0 |- *. lia. }
        unfold minChild, getChild. rewrite Hkind3, E0. by destruct (n_kind n).
      - done. }
    intros Hnk p' k v Hr' Hkv Hh Hsafe.
    assert (Hk : sortedkind (n_kind n) = true) by (by apply Hsort).
    assert (Hslot : forall i b tk, kids !! i = Some (b, tk) -> slots !! i = Some (Some tk)) by (by apply Hslot').
    destruct (keptl_some (n_children n2) outs (seq 0 (n_nch n2))) as (ka & Eka & Hkal).
    { intros i Hi. apply elem_of_seq in Hi. rewrite S3, Hnch in Hi. destruct (lookup_lt_is_Some_2 kids i ltac:(lia)) as [[b tk] Hb].
      destruct (Hsome i tk (Hslot i b tk Hb)) as (o & Ho & _). eauto. }
    fold K in Eka. assert (EKl : length ka = length K) by (by rewrite Eka, fmap_length).
    assert (He3 : enc n3 (zip kids.*1 ka)).
    { rewrite <- ents_fst. eapply (compact_enc n n3); try done.
      - unfold ents. rewrite fmap_length. lia.
      - rewrite Hnch3, EKl. symmetry. apply u8_small. lia.
      - rewrite EKl, Hch3, firstn_app, take_ge, Nat.sub_diag, take_0, app_nil_r by lia. done. }
    assert (Hpath : forall x c, k = p' ++ pre ++ c :: x -> pathok n3 k (length p') c).
    { intros x c E. by eapply (rep_pathok (s_h s) p' a pre lf kids n). }
    apply elem_leaves in Hkv as [[la El]|(b & tk & Hbt & Hkv)].
    + rewrite El in Hlf3. destruct Hlf3 as (E' & _ & l & Hl & El1 & El2).
      assert (Ekk : k = p' ++ pre ++ dollar :: [] /\ dollar ∉ kids.*1).
      { clear -Hr' El Hne. apply rep_inv in Hr' as (n' & _ & _ & _ & _ & _ & _ & _ & Hk3 & _). destruct (Hk3 _ _ _ El) as [_ Hk3']. by apply Hk3'. }
      destruct Ekk as [Ekk Hd]. eapply (fnd_own _ _ _ _ _ a2 n3 la l); try done; [by eapply Fla|]. right. exists dollar. split; [by eapply Hpath|].
      eapply findChild_None; [exact He3|unfold dollar; lia|]. apply alook_None. intros Hx. apply Hd.
      apply elem_of_list_fmap in Hx as ([b c] & E & Hx). cbn in E. subst b. by apply elem_of_zip_l in Hx.
    + apply elem_of_list_lookup_1 in Hbt as [j Hj]. pose proof (Hslot j b tk Hj) as Hsj. apply elem_of_list_lookup_2 in Hj as Hbt.
      assert (Hbefore : forall i, i < S j -> exists c, outs !! i = Some (Some (Some c))).
      { intros i Hi. assert (Hjl := lookup_lt_Some _ _ _ Hj). destruct (lookup_lt_is_Some_2 kids i ltac:(lia)) as [[b1 t1] Hi1].
        destruct (Hsome i t1 (Hslot _ _ _ Hi1)) as ([c|] & Ho & Hres); [eauto|]. exfalso. cbn in Hres. destruct Hres as [(k1 & v1 & El1 & Hh1) _].
        destruct (decide (i = j)) as [->|Hij].
        - assert (t1 = tk) as -> by congruence. rewrite El1 in Hkv. apply elem_of_list_singleton in Hkv as [= -> ->]. congruence.
        - eapply (safe_before _ _ _ _ _ _ _ _ _ i j); try done. lia. }
      destruct (Hbefore j ltac:(lia)) as [c Hc]. destruct (Hsome j tk Hsj) as (o & Ho & Hres). assert (o = Some c) as -> by congruence.
      assert (Hjl := lookup_lt_Some _ _ _ Hj).
      assert (HKj : K !! j = Some (Some c)).
      { unfold K. apply keptl_lookup; [|done|rewrite S3, Hnch; lia]. intros i _ Hi. apply Hbefore. lia. }
      assert (Hzip : zip kids.*1 ka !! j = Some (b, c)).
      { rewrite lookup_zip_with. rewrite list_lookup_fmap, Hj. cbn. rewrite Eka, list_lookup_fmap in HKj. destruct (ka !! j); [|done]. cbn in *. congruence. }
      assert (Hel := elem_of_list_lookup_2 _ _ _ Hzip). apply elem_of_list_split in Hel as (l1 & l2 & Ez).
      destruct (enc_set n3 l1 b c l2) as (idx & Hfc & _); [by rewrite <- Ez|].
      pose proof (rep_leaves_kid _ _ _ _ _ _ _ _ _ _ Hr' Hbt Hkv) as [y Ey]. rewrite <- !app_assoc in Ey. cbn [app] in Ey.
      eapply (fnd_kid _ _ _ _ _ a2 n3 b c idx); [done|done| |by eapply Hpath|done|].
      * unfold isLeafN. rewrite Hnch3. apply lookup_lt_Some in HKj. destruct (length K); [lia|]. done.
      * destruct Hres as (_ & Hres & _). eapply fnd_mono; [exact HFk|].
        assert (Hpl' : length p' + n_plen n3 + 1 = length (p' ++ pre ++ [b])).
        { rewrite Hpl3, !app_length. destruct (Hk1 Hne) as [-> _]. cbn. lia. }
        rewrite Hpl'. apply Hres; try done.
        -- eapply narrowL_sub; [|exact Hnk]. by apply (kid_sub a pre lf kids b).
        -- apply rep_inv in Hr' as (n' & _ & _ & _ & _ & _ & _ & _ & _ & _ & Hkids'). by apply Hkids'.
        -- intros k1 v1 Hk1' Hh1. destruct (Hsafe k1 v1) as [|(k2 & v2 & q & Hk2' & Hne2 & Hq1 & Hq2 & Hqn)]; [apply elem_leaves; right; eauto|done|by left|].
           right. exists k2, v2, q. split; [|done].
           pose proof (rep_leaves_kid _ _ _ _ _ _ _ _ _ _ Hr' Hbt Hk1') as Pk1.
           assert (Hpq : (p' ++ pre ++ [b]) `prefix_of` q).
           { destruct (prefix_weak_total _ _ _ Pk1 Hq1) as [|Hqp]; [done|]. exfalso. apply Hqn. etrans; [exact Hqp|]. exists y. rewrite Ey. by rewrite <- !app_assoc. }
           by eapply (kid_of_prefix _ _ _ _ _ _ b tk k2 v2 Hr' Hbt Hk2'); etrans.
Qed.
End DelPre3.
