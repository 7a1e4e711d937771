(** Delete of a key that is not stored: what it removes. *)
From Verif Require Export Linear SpecLossy.
From stdpp Require Export list.
Local Open Scope nat_scope.

(** ** Partial-correctness triples: nothing is said about runs that panic *)
Definition pp {S A} (m : M S A) (Q : A -> S -> Prop) (s : S) : Prop :=
  forall a s', m s = (Ok a, s') -> Q a s'.

Lemma pp_wp {S A} (m : M S A) (Q : A -> S -> Prop) s : wp m Q s -> pp m Q s.
Proof. intros Hw a s' E. unfold wp in Hw. by rewrite E in Hw. Qed.
Lemma pp_mono {S A} (m : M S A) (P Q : A -> S -> Prop) s : pp m P s -> (forall a s', P a s' -> Q a s') -> pp m Q s.
Proof. intros Hp HPQ a s' E. apply HPQ. by apply Hp. Qed.
Lemma pp_bind {S A B} (m : M S A) (k : A -> M S B) Q s : pp m (fun a s' => pp (k a) Q s') s -> pp (bind m k) Q s.
Proof. intros Hp b s' E. unfold bind in E. destruct (m s) as [[a| |] s1] eqn:Em; [|done..]. by eapply Hp. Qed.
Lemma pp_use {S A B} (m : M S A) (k : A -> M S B) (P : A -> S -> Prop) Q s :
  pp m P s -> (forall a s', P a s' -> pp (k a) Q s') -> pp (bind m k) Q s.
Proof. intros Hm Hk. apply pp_bind. eapply pp_mono; [exact Hm|exact Hk]. Qed.
Lemma pp_ret {S A} (a : A) (Q : A -> S -> Prop) s : Q a s -> pp (ret a) Q s.
Proof. intros HQ b s' E. injection E as <- <-. done. Qed.
Lemma pp_lift {S A} (o : outcome A) (Q : A -> S -> Prop) s : (forall a, o = Ok a -> Q a s) -> pp (lift o) Q s.
Proof. intros HQ b s' E. destruct o as [a| |]; [|done..]. injection E as <- <-. by apply HQ. Qed.

Section AbsDel.
Context {V : Type} `{GoZero V}.
Notation art := (art V).
Notation TM := (M (st V)).
Notation nd s := (h_nodes (s_h s)).
Notation lv s := (h_leaves (s_h s)).
Notation nx s := (h_next (s_h s)).

Lemma pp_byteAt k i (Q : nat -> st V -> Prop) s : (forall b, k !! i = Some b -> Q b s) -> pp (byteAt k i) Q s.
Proof. intros HQ b s' E. unfold byteAt in E. destruct (k !! i) as [x|]; [|done]. injection E as <- <-. by apply HQ. Qed.

(** A child changed in place, under the same address *)
Lemma same_kid (s s1 : st V) p a pre lf k1 b tc tc' k2 :
  rep (s_h s) p (Art a pre lf (k1 ++ (b, tc) :: k2)) -> NoDup (fp (Art a pre lf (k1 ++ (b, tc) :: k2))) ->
  upd (fun x => x ∈ fp tc) s s1 -> del_tree s (p ++ pre ++ [b]) tc tc' s1 -> aroot tc' = aroot tc ->
  nd s1 !! a = nd s !! a /\ upd (fun x => x ∈ fp (Art a pre lf (k1 ++ (b, tc) :: k2))) s s1 /\
  del_tree s p (Art a pre lf (k1 ++ (b, tc) :: k2)) (Art a pre lf (k1 ++ (b, tc') :: k2)) s1.
Proof.
  intros Hr Hnd HU1 (Hr1 & Hnd1 & Hin1) Hroot. pose proof Hr as Hr0. pose proof (rep_fpx _ _ _ Hr) as Hfp.
  set (kids := k1 ++ (b, tc) :: k2) in *. assert (Hne : kids <> []) by (by unfold kids; destruct k1).
  pose proof (fun n => rep_low _ _ _ _ _ _ n Hr) as Hlow. apply rep_inv in Hr as (n & Hn & Hlt & He & Hpl & Hlf & Hk1 & Hk2 & Hk3 & Hst & Hkids).
  assert (Hfpk : fp (Art a pre lf kids) = a :: (lfa lf ++ kfp k1) ++ fp tc ++ kfp k2).
  { unfold kids. by rewrite fp_eq, kfp_app, kfp_cons, app_assoc. }
  rewrite Hfpk in Hnd, Hfp. apply NoDup_cons in Hnd as [Hani Hnd].
  assert (Hatc : a ∉ fp tc) by (intros Hx; apply Hani; mem).
  assert (Hn1 : nd s1 !! a = Some n) by (eapply upd_node; [exact HU1|done..]). pose proof (upd_next _ _ _ HU1) as Hnx1.
  assert (Hout : forall x, x ∈ lfa lf ++ kfp k1 ++ kfp k2 -> x ∉ fp tc /\ x < nx s /\ x <> a).
  { intros x Hx. rewrite app_assoc in Hx. assert (Hx' : x ∈ (lfa lf ++ kfp k1) ++ fp tc ++ kfp k2) by (apply elem_mid3; by left).
    assert (Hxlt : x < nx s) by (apply Hfp; by right). assert (x <> a) by (intros ->; done). split_and!; [|done..].
    by apply (mid_notin _ _ _ _ Hnd). }
  assert (Hac' : a ∉ fp tc').
  { intros Hx. destruct (Hin1 _ Hx); [done|lia]. }
  split; [congruence|]. split; [|split; [|split]].
  - eapply upd_weaken; [exact HU1|]. intros x _ Hx. rewrite Hfpk. mem.
  - assert (Hfst : (k1 ++ (b, tc') :: k2).*1 = kids.*1) by (unfold kids; by rewrite !fmap_app).
    assert (Hlen : length (k1 ++ (b, tc') :: k2) = length kids) by (by rewrite <- (fmap_length fst), Hfst, fmap_length).
    apply (rep_node _ _ _ _ _ _ n); [..|rewrite Hlen; by apply Hlow].
    + done.
    + lia.
    + rewrite ents_app. unfold kids in He. rewrite ents_app in He. unfold ents in *. rewrite fmap_cons in *. cbn [fst snd] in *. rewrite Hroot. exact He.
    + done.
    + eapply upd_leafrep; [exact HU1|exact Hlf|]. intros x Hx. apply Hout. mem.
    + intros _. by apply Hk1.
    + by destruct k1.
    + intros la k v0 E. destruct (Hk3 _ _ _ E) as [Hs1 Hs2]. split; [done|]. intros _. rewrite Hfst. by apply Hs2.
    + intros c Hc. destruct (Hst c Hc) as (b' & Hb' & Hok). exists b'. rewrite Hfst. split; [done|]. by apply (upd_ext _ _ _ HU1).
    + intros b' t Hbt. apply elem_mid in Hbt as [E|Hbt]; [by injection E as -> ->|].
      eapply upd_rep; [exact HU1|apply Hkids; unfold kids; apply elem_mid; by right|].
      intros x Hx. apply Hout. rewrite <- kfp_app. apply elem_of_app. right. apply elem_kfp. eauto.
  - rewrite fp_eq, kfp_app, kfp_cons, app_assoc. apply NoDup_cons. split.
    + rewrite !elem_of_app. intros [[Hx|Hx]|[Hx|Hx]]; [| |done|]; (destruct (Hout a) as (_ & _ & ?); [mem|done]).
    + eapply NoDup_replace; [exact Hnd|done|]. intros e He1. destruct (Hin1 _ He1) as [|Hge]; [by left|]. right.
      split; intros Hx; (assert (e < nx s) by (apply Hfp; right; apply elem_mid3; left; apply elem_of_app; auto)); lia.
  - intros x. rewrite Hfpk, fp_eq, kfp_app, kfp_cons. rewrite !elem_of_cons, !elem_of_app.
    intros [->|[Hx|[Hx|[Hx|Hx]]]]; [tauto|tauto|tauto| |tauto]. destruct (Hin1 _ Hx); tauto.
Qed.

(** No stored key of t agrees with key on the first ten bytes. *)
Definition nearT (key : bytes) (t : art) : Prop := forall k v, (k, v) ∈ leaves t -> take maxPrefixLen k <> take maxPrefixLen key.

Definition abs_post (s : st V) (p : bytes) (t : art) (key : bytes) (r : option addr * option ref * bool) (s' : st V) : Prop :=
  r.1.2 = None /\ exists ot' q, r.1.1 = aroot <$> ot' /\ upd (fun x => x ∈ fp t) s s' /\
    (p `prefix_of` q \/ q = key) /\ (nearT key t -> p `prefix_of` key -> q `prefix_of` key) /\
    match ot' with
    | None => forall k v, (k, v) ∈ leaves t -> q `prefix_of` k
    | Some t' => del_tree s p t t' s' /\ (forall k v, (k, v) ∈ leaves t' <-> (k, v) ∈ leaves t /\ ~ q `prefix_of` k)
    end.

Lemma nearT_kid key a pre lf kids b (t : art) : nearT key (Art a pre lf kids) -> (b, t) ∈ kids -> nearT key t.
Proof. intros Hk Hin k v Hkv. eapply Hk. apply elem_leaves. right. eauto. Qed.

Lemma near_step (partial pre p key k : bytes) plen : length partial = maxPrefixLen ->
  take (maxPrefixLen `min` length pre) partial = take maxPrefixLen pre -> plen = length pre ->
  p `prefix_of` key -> (p ++ pre) `prefix_of` k -> take maxPrefixLen k <> take maxPrefixLen key ->
  (plen > 0 -> checkPrefix partial plen key (length p) = Ok (maxPrefixLen `min` plen)) -> (p ++ pre) `prefix_of` key.
Proof.
  intros Hl Ht -> [x ->] [y ->] Hne Hc. destruct pre as [|b0 pre0]; [rewrite app_nil_r; by exists x|].
  set (pre := b0 :: pre0) in *. specialize (Hc ltac:(cbn; lia)). rewrite checkPrefix_ok in Hc by done. injection Hc as Hc.
  rewrite drop_app, app_length in Hc. change (S (length pre0)) with (length pre) in Hc. set (m := maxPrefixLen `min` length pre) in *.
  assert (Hm : m <= lcp partial x) by lia.
  assert (Htx : take m partial = take m x).
  { transitivity (take m (take (lcp partial x) partial)); [rewrite take_take; f_equal; lia|]. rewrite lcp_take, take_take. f_equal. lia. }
  destruct (decide (maxPrefixLen <= length pre)) as [Hge|Hlt].
  - exfalso. apply Hne. assert (Em : m = maxPrefixLen) by (unfold m; lia). rewrite Em in *.
    rewrite <- app_assoc, (firstn_app _ p (pre ++ y)), (firstn_app _ p x). f_equal. rewrite (take_app_le pre) by lia.
    transitivity (take (maxPrefixLen - length p) (take maxPrefixLen pre)); [rewrite take_take; f_equal; lia|].
    rewrite <- Ht, Htx, take_take. f_equal. lia.
  - apply prefix_app. assert (Em : m = length pre) by (unfold m; lia). rewrite Em in *.
    rewrite (take_ge pre) in Ht by lia. exists (drop (length pre) x). rewrite <- (take_drop (length pre) x) at 1. f_equal. congruence.
Qed.

Definition absP (fuel : nat) : Prop := forall (s : st V) p t key, rep (s_h s) p t -> NoDup (fp t) -> stored key ->
  (forall v, (key, v) ∉ leaves t) -> room t -> length key - length p + 1 <= fuel ->
  pp (erecursiveDelete fuel (Some (aroot t)) key (length p)) (abs_post s p t key) s.

Lemma abs_same (s : st V) p t key b : rep (s_h s) p t -> NoDup (fp t) -> stored key -> (forall v, (key, v) ∉ leaves t) ->
  abs_post s p t key (Some (aroot t), None, b) s.
Proof.
  intros Hr Hnd Hk Hni. split; [done|]. exists (Some t), key. split; [done|]. split; [apply upd_refl|]. split; [by right|]. split; [done|].
  split; [split_and!; [done|done|by left]|]. intros k v. split; [|by intros [? _]]. intros Hkv. split; [done|].
  intros Hp. destruct (rep_leaves _ _ _ _ _ Hr Hkv) as [_ Hs]. assert (key = k) as -> by by apply stored_prefix_free. by apply Hni in Hkv.
Qed.
Lemma abs_gone (s : st V) p t key b : rep (s_h s) p t -> abs_post s p t key (None, None, b) s.
Proof.
  intros Hr. split; [done|]. exists None, p. split; [done|]. split; [apply upd_refl|]. split; [by left|]. split; [done|].
  intros k v Hkv. by destruct (rep_leaves _ _ _ _ _ Hr Hkv).
Qed.

Lemma abs_main fuel : absP fuel.
Proof.
  induction fuel as [|fuel IH]; intros s p t key Hr Hnd Hsk Hni Hroom Hf; [lia|].
  destruct t as [a pre lf kids]. pose proof Hr as Hr0.
  pose proof (room_kids _ _ _ _ _ _ Hr (Hroom _)) as Hfull. pose proof (rep_sorted _ _ _ _ _ _ Hr) as Hsor.
  apply rep_inv in Hr as (n & Hn & Hlt & He & Hpl & Hlf & Hk1 & Hk2 & Hk3 & Hst & Hkids).
  cbn [erecursiveDelete aroot]. apply pp_bind, pp_wp. eapply wp_loadN; [exact Hn|]. rewrite leafMatches_nil by done. rewrite andb_false_r.
  assert (Hhit : forall (Q : option addr -> st V -> Prop), Q None s ->
    pp (match n_leaf n with
     | Some nodeL => let! nl := loadL nodeL in ret (if leafMatches (l_key nl) key then Some nodeL else None)
     | None => ret None end) Q s).
  { intros Q HQ2. destruct lf as [[[la k] v0]|]; cbn in Hlf.
    - destruct Hlf as (-> & _ & l & Hl & Hlk & Hlv). apply pp_bind, pp_wp. eapply wp_loadL; [exact Hl|]. apply pp_ret. rewrite Hlk.
      destruct (leafMatches k key) eqn:Em; [|done]. apply leafMatches_true in Em as ->. exfalso. apply (Hni v0). apply elem_leaves. left. eauto.
    - rewrite Hlf. by apply pp_ret. }
  apply pp_bind. apply Hhit; clear Hhit.
  assert (Hbail : forall (Q : bool -> st V -> Prop), Q true s ->
    ((n_plen n > 0 -> checkPrefix (n_partial n) (n_plen n) key (length p) = Ok (maxPrefixLen `min` n_plen n)) -> Q false s) ->
    pp (if Nat.ltb 0 (n_plen n) then
           let! prefixLen := lift (checkPrefix (n_partial n) (n_plen n) key (length p)) in
           ret (negb (Nat.eqb prefixLen (maxPrefixLen `min` n_plen n)))
         else ret false) Q s).
  { intros Q HQ1 HQ2. destruct (Nat.ltb_spec 0 (n_plen n)); [|apply pp_ret; apply HQ2; lia]. apply pp_bind. apply pp_lift. intros x Hx.
    apply pp_ret. destruct (Nat.eqb_spec x (maxPrefixLen `min` n_plen n)) as [->|]; [by apply HQ2|done]. }
  apply pp_bind. apply Hbail; clear Hbail.
  { apply pp_ret. by eapply (abs_same s p (Art a pre lf kids)). }
  intros Hchk. cbv zeta. apply pp_bind, pp_byteAt. intros b Hb.
  assert (Hb256 : b < 256).
  { apply elem_of_list_lookup_2 in Hb. destruct Hsk as (k0 & -> & Hv). apply elem_of_app in Hb as [Hb|Hb].
    - cbn in Hv. unfold valid_key in Hv. rewrite Forall_forall in Hv. by apply Hv.
    - apply elem_of_list_singleton in Hb as ->. unfold dollar. lia. }
  destruct (alook (ents kids) b) as [c|] eqn:Ealook.
  2:{ apply pp_bind, pp_lift. intros x Hx. rewrite (findChild_None n (ents kids) b) in Hx by done. injection Hx as <-. cbn beta iota.
      apply pp_ret. by apply abs_gone. }
  apply alook_Some_elem, elem_ents in Ealook as (tc & Hbt & _).
  assert (Hne : kids <> []) by (intros ->; by apply elem_of_nil in Hbt).
  destruct (Hk1 Hne) as (Hpn & Hpt & Hndp).
  assert (Hnear : nearT key (Art a pre lf kids) -> p `prefix_of` key -> (p ++ pre ++ [b]) `prefix_of` key).
  { intros Hnr Hp. destruct (rep_nonempty _ _ _ (Hkids _ _ Hbt)) as (k & v & Hkv). pose proof (rep_leaves _ _ _ _ _ (Hkids _ _ Hbt) Hkv) as [Hpk _].
    assert (Hpp : (p ++ pre) `prefix_of` key).
    { eapply (near_step (n_partial n) pre p key k); try done. - by apply app3_prefix in Hpk. - eapply Hnr. apply elem_leaves. right. eauto. }
    rewrite app_assoc. destruct Hpp as [x ->]. rewrite Hpn, lookup_app_r in Hb by (rewrite app_length; lia). rewrite app_length, Nat.sub_diag in Hb.
    destruct x as [|b' x]; [done|]. injection Hb as ->. exists x. by rewrite <- (app_assoc _ [b]). }
  apply elem_of_list_split in Hbt as (k1 & k2 & ->).
  pose proof He as He0. rewrite ents_app in He0.
  destruct (enc_set _ _ _ _ _ He0) as (idx & Hfc & _). apply pp_bind, pp_lift. intros x Hx. cbn [fst snd] in Hfc. rewrite Hfc in Hx. injection Hx as <-. cbn beta iota.
  assert (Hbt : (b, tc) ∈ k1 ++ (b, tc) :: k2) by (apply elem_of_app; right; left).
  assert (Hfp : fp (Art a pre lf (k1 ++ (b, tc) :: k2)) = a :: (lfa lf ++ kfp k1) ++ fp tc ++ kfp k2).
  { by rewrite fp_eq, kfp_app, kfp_cons, app_assoc. }
  assert (Hndt : NoDup ((lfa lf ++ kfp k1) ++ fp tc ++ kfp k2) /\ a ∉ (lfa lf ++ kfp k1) ++ fp tc ++ kfp k2).
  { rewrite Hfp in Hnd. by apply NoDup_cons in Hnd as [? ?]. }
  destruct Hndt as [Hndt Hat].
  assert (Hndc : NoDup (fp tc)) by (apply NoDup_app in Hndt as (_ & _ & Hx); by apply NoDup_app in Hx as (? & _)).
  (* keys outside the child do not start with its path *)
  assert (Hone : forall q k v0, outside lf (k1 ++ k2) k v0 -> (p ++ pre ++ [b]) `prefix_of` q \/ q = key -> ~ q `prefix_of` k).
  { intros q k v0 Ho [Hq| ->].
    - intros [z Hz]. refine (outside_ne _ _ _ _ _ _ _ _ b k k v0 Hr0 Hne _ _ _ _ Ho eq_refl).
      + intros y Hy. apply elem_mid. by right.
      + rewrite fmap_app, fmap_cons in Hsor. rewrite fmap_app. by apply NoDup_mid in Hsor.
      + intros la k0 v1 E ->. destruct (Hk3 _ _ _ E) as [_ Hk]. destruct (Hk Hne) as [_ Hd]. apply Hd. rewrite fmap_app. cbn. mem.
      + etrans; [exact Hq|]. by exists z.
    - intros Hq. assert (Hkv : (k, v0) ∈ leaves (Art a pre lf (k1 ++ (b, tc) :: k2))) by (apply leaves_split; by left).
      destruct (rep_leaves _ _ _ _ _ Hr0 Hkv) as [_ Hs]. assert (key = k) as -> by by apply stored_prefix_free. by apply Hni in Hkv. }
  replace (length p + n_plen n + 1) with (length (p ++ pre ++ [b])) by (rewrite !app_length, Hpn; cbn; lia).
  eapply pp_use; [eapply (IH s (p ++ pre ++ [b]) tc key); try done|].
  { by apply Hkids. } { intros v Hv. apply (Hni v). apply leaves_split. by right. } { by eapply room_kid. }
  { apply lookup_lt_Some in Hb. rewrite !app_length, <- Hpn. cbn [length]. lia. }
  intros [[newChild val] mut] s1 (Ev & ot' & q & Er & HU1 & Hq & Hqn & Hot). cbn [fst snd] in *. subst newChild val.
  rewrite orb_false_r. cbn [is_some].
  assert (Hqn' : nearT key (Art a pre lf (k1 ++ (b, tc) :: k2)) -> p `prefix_of` key -> q `prefix_of` key).
  { intros Hnr Hp. apply Hqn; [by eapply nearT_kid|by apply Hnear]. }
  assert (Hq' : p `prefix_of` q \/ q = key).
  { destruct Hq as [[z ->]|Hq]; [left|by right]. exists (pre ++ [b] ++ z). by rewrite <- !app_assoc. }
  destruct ot' as [tc'|]; cbn [fmap option_fmap option_map].
  - destruct Hot as (Htr & Hlv).
    assert (Hpost : forall a' s2, upd (fun x => x ∈ fp (Art a pre lf (k1 ++ (b, tc) :: k2))) s s2 ->
      del_tree s p (Art a pre lf (k1 ++ (b, tc) :: k2)) (Art a' pre lf (k1 ++ (b, tc') :: k2)) s2 ->
      abs_post s p (Art a pre lf (k1 ++ (b, tc) :: k2)) key (Some a', None, mut) s2).
    { intros a' s2 HU2 Htr2. split; [done|]. exists (Some (Art a' pre lf (k1 ++ (b, tc') :: k2))), q. cbn [fst snd]. split; [done|]. split; [done|].
      split; [done|]. split; [done|]. split; [done|]. intros k v0. rewrite !leaves_split, Hlv. specialize (Hone q k v0). tauto. }
    destruct (opt_addr_eqb (Some (aroot tc')) (Some (aroot tc))) eqn:Eq; cbn [negb].
    + unfold opt_addr_eqb in Eq. case_bool_decide as Eq2; [|done]. clear Eq. injection Eq2 as Eq. destruct (same_kid s s1 p a pre lf k1 b tc tc' k2) as (Hn2 & HU2 & Htr2); try done.
      apply pp_bind, pp_ret. apply pp_bind, pp_wp. eapply wp_loadN; [rewrite Hn2; exact Hn|].
      rewrite (enc_nch _ _ He). unfold ents. rewrite fmap_length, u8_small by done.
      destruct (Nat.eqb_spec (length (k1 ++ (b, tc) :: k2)) 0) as [E0|_]; [destruct k1; done|]. apply pp_ret. by apply Hpost.
    + eapply pp_use; [apply pp_wp; eapply (set_kid s s1 p a pre lf k1 b tc tc' k2 n idx); done|].
      intros a' s2 ((n2 & Hn2 & Hnch) & HU2 & Hlv2 & Htr2 & _). apply pp_bind, pp_wp. eapply wp_loadN; [exact Hn2|].
      rewrite Hnch, (enc_nch _ _ He). unfold ents. rewrite fmap_length, u8_small by done.
      destruct (Nat.eqb_spec (length (k1 ++ (b, tc) :: k2)) 0) as [E0|_]; [destruct k1; done|]. apply pp_ret. by apply Hpost.
  - assert (Hlv : forall k v0, (k, v0) ∈ leaves (Art a pre lf (k1 ++ (b, tc) :: k2)) /\ ~ q `prefix_of` k <-> outside lf (k1 ++ k2) k v0).
    { intros k v0. rewrite leaves_split. specialize (Hone q k v0). specialize (Hot k v0). tauto. }
    cbn [opt_addr_eqb negb].
    destruct (decide (n_kind n = K4 /\ length (k1 ++ k2) = 1 /\ lf = None)) as [(Hkind & Hlen & ->)|Hnm].
    + destruct (k1 ++ k2) as [|[b2 t2] [|? ?]] eqn:Ek; try done.
      assert (Hbt2 : (b2, t2) ∈ k1 ++ (b, tc) :: k2) by (apply elem_mid; right; rewrite Ek; left).
      eapply pp_use; [apply pp_wp; eapply (merge_kid s s1 p a pre k1 b tc k2 n idx b2 t2); try done|].
      { pose proof (Hkids _ _ Hbt2) as Hr2. destruct t2 as [c2 pre2 lf2 kids2]. eapply room_kids; [exact Hr2|]. apply (room_kid _ _ _ _ _ _ Hroom Hbt2). }
      intros a' s2 (HU2 & Hlv2 & n2 & t' & Hn2 & -> & Hnl & Htr & Hlt' & _). apply pp_bind, pp_wp. eapply wp_loadN; [exact Hn2|].
      assert (Hpost : abs_post s p (Art a pre None (k1 ++ (b, tc) :: k2)) key (Some (aroot t'), None, mut) s2).
      { split; [done|]. exists (Some t'), q. cbn [fst snd]. split; [done|]. split; [done|]. split; [done|]. split; [done|]. split; [done|].
        intros k v0. rewrite Hlv, Hlt'. unfold outside. split.
        - intros Hx. right. exists b2, t2. split; [left|done].
        - intros [(? & [=])|(b' & t & Hx & Hy)]. apply elem_of_list_singleton in Hx. by injection Hx as -> ->. }
      destruct (Nat.eqb_spec (n_nch n2) 0) as [E0|_]; [|by apply pp_ret]. destruct (n_leaf n2); [by apply pp_ret|]. by destruct (Hnl E0).
    + eapply pp_use; [apply pp_wp; eapply (drop_kid s s1 p a pre lf k1 b tc k2 n idx); done|].
      intros a' s2 (HU2 & Hlv2 & Hkp2 & n2 & lf' & Hn2 & [Hnch _] & Hlf2 & Hmv & Htr). apply pp_bind, pp_wp. eapply wp_loadN; [exact Hn2|].
      assert (Hout' : forall k v0, outside lf' (k1 ++ k2) k v0 <-> outside lf (k1 ++ k2) k v0).
      { intros k v0. unfold outside. destruct lf as [[[la1 k3] v3]|], lf' as [[[la2 k4] v4]|]; try done.
        destruct Hmv as (-> & -> & _). split; (intros [(? & [= <- <- <-])|Hx]; [left; eauto|by right]). }
      assert (Hpost : lf <> None \/ k1 ++ k2 <> [] ->
         abs_post s p (Art a pre lf (k1 ++ (b, tc) :: k2)) key (Some a', None, mut) s2).
      { intros Hs. split; [done|]. exists (Some (Art a' pre lf' (k1 ++ k2))), q. cbn [fst snd]. split; [done|]. split; [done|]. split; [done|]. split; [done|]. split; [by apply Htr|].
        intros k v0. rewrite Hlv, <- Hout'. apply elem_leaves. }
      rewrite app_length in Hfull. cbn in Hfull. rewrite u8_small in Hnch by (rewrite app_length; lia).
      rewrite Hnch. destruct (Nat.eqb_spec (length (k1 ++ k2)) 0) as [E0|E0].
      * apply nil_length_inv in E0. destruct lf' as [[[la2 k4] v4]|]; cbn in Hlf2.
        -- destruct Hlf2 as (-> & _). apply pp_ret. apply Hpost. left. by destruct lf.
        -- rewrite Hlf2. apply pp_ret. split; [done|]. exists None, q. cbn [fst snd]. split; [done|]. split; [done|]. split; [done|]. split; [done|].
           intros k v0 Hx. apply leaves_split in Hx as [[(la1 & ->)|(b' & t & Hx & _)]|Hx]; [done| |by eapply Hot].
           rewrite E0 in Hx. by apply elem_of_nil in Hx.
      * apply pp_ret. apply Hpost. right. by intros E1; rewrite E1 in E0.
Qed.

(** ** A transaction, a tree *)
Notation kmap := (gmap (list nat) V).
Definition nearM (m : kmap) (k : bytes) : Prop :=
  forall k', is_Some (m !! k') -> take maxPrefixLen (k' ++ [dollar]) <> take maxPrefixLen (k ++ [dollar]).

Lemma cut_Some (m : kmap) q k v : cut q m !! k = Some v <-> m !! k = Some v /\ ~ q `prefix_of` (k ++ [dollar]).
Proof. unfold cut. by rewrite map_filter_lookup_Some. Qed.
Lemma cut_get (m : kmap) q k : ref_get (cut q m) k = if decide (q `prefix_of` (k ++ [dollar])) then (go_zero, false) else ref_get m k.
Proof.
  unfold ref_get. destruct (cut q m !! k) as [v|] eqn:E.
  - apply cut_Some in E as [E Hn]. rewrite E. by rewrite decide_False.
  - destruct (decide (q `prefix_of` k ++ [dollar])); [done|]. destruct (m !! k) as [v|] eqn:Em; [|done].
    by assert (cut q m !! k = Some v) as E2 by (apply cut_Some; done); rewrite E2 in E.
Qed.

Lemma installEmptyRoot_phantom (s : st V) (Q : unit -> st V -> Prop) :
  (forall s', phantom false (s_h s') (t_root (s_t s')) -> t_size (s_t s') = t_size (s_t s) -> t_tsize (s_t s') = t_tsize (s_t s) -> Q tt s') ->
  wp installEmptyRoot Q s.
Proof.
  intros HQ. 
  set (s2 := mkS (mkH (<[S (nx s) := set_leaf (set_id (zero_node K4) (t_max (s_t s))) (Some (nx s))]> (nd s))
                     (<[nx s := mkL (t_max (s_t s) + 1) go_zero [] None]> (lv s)) (S (S (nx s))) (h_nextch (s_h s)) (h_closed (s_h s)))
                   (set_t_root (set_t_max (s_t s) (t_max (s_t s) + 2)) (S (nx s)))).
  eapply (wp_intro _ _ _ tt s2); [done|]. apply HQ; [|done..].
  eexists _, (nx s), _. cbn. rewrite !lookup_insert. split; [done|]. split; [lia|].
  split; [eapply enc_same; [|apply (enc_zero4 0)]; done|]. split; [done|]. split.
  { intros i c. cbn. do 4 (destruct i as [|i]; [done|]). done. }
  split; [done|]. split; [lia|]. split; [done|]. split; [done|]. split; [lia|]. done.
Qed.

Definition absent_post (s : st V) (m : kmap) (k : bytes) (r : V * bool) (s' : st V) : Prop :=
  r = (go_zero, false) /\ t_size (s_t s') = t_size (s_t s) /\ exists q,
    holds false (s_h s') (t_root (s_t s')) (cut q m) /\ (nearM m k -> q `prefix_of` (k ++ [dollar])).

Lemma etxnDelete_absent (b : bool) (s : st V) (m : kmap) (k : bytes) : holds b (s_h s) (t_root (s_t s)) m -> valid_key k -> m !! k = None -> roomy m ->
  pp (etxnDelete k) (absent_post s m k) s.
Proof.
  intros Hh Hv Hm Hroom. unfold etxnDelete, delete_fuel. apply pp_bind, pp_wp, wp_getT.
  pose proof (stored_tree k Hv) as Hst.
  destruct Hh as [-> (n & la & l & Hn & Hlt & He & Hpl & Hch & Hlf & Hlalt & Hl & Hlk & Hne & _ & Hk4)|t Hr Hnd Hroot Hc].
  - (* the empty tree *)
    eapply pp_use with (P := fun r s' => s' = s /\ r = (None, None, false)).
    { apply pp_wp. replace (length (getTreeKey k) + 2) with (S (length (getTreeKey k) + 1)) by lia.
      cbn [erecursiveDelete]. apply wp_bind. eapply wp_loadN; [exact Hn|]. rewrite leafMatches_nil by done. rewrite andb_false_r, Hlf.
      apply wp_bind, wp_bind. eapply wp_loadL; [exact Hl|]. apply wp_ret. rewrite Hlk, leafMatches_nil by done. rewrite Hpl. cbn [Nat.ltb Nat.leb].
      apply wp_bind, wp_ret. cbv zeta. assert (Hb : exists c, getTreeKey k !! (0 + 0) = Some c /\ c < 256).
      { unfold getTreeKey. destruct k as [|c k]; cbn; [exists dollar; unfold dollar; split; [done|lia]|]. exists c. split; [done|]. inversion Hv; subst. by destruct H2. }
      destruct Hb as (c & Hb & Hc). apply wp_bind. eapply wp_byteAt; [exact Hb|]. apply wp_bind. eapply wp_lift; [by apply (findChild_None n [])|].
      cbn beta iota. by apply wp_ret. }
    intros r s' [-> ->]. cbn beta iota. apply pp_bind, pp_wp. apply installEmptyRoot_phantom. intros s' Hph E1 E2. apply pp_ret.
    split; [done|]. split; [done|]. exists []. split; [|intros _; apply prefix_nil]. apply holds_empty; [|done].
    apply map_eq. intros k1. rewrite lookup_empty. destruct (cut [] ∅ !! k1) eqn:E; [|done]. by apply cut_Some in E as [E _].
  - rewrite Hroot.
    assert (Hni : forall v, (getTreeKey k, v) ∉ leaves t).
    { intros v Hin. apply Hc in Hin as (k0 & E & Hk0). apply app_inj_tail in E as [-> _]. by rewrite Hk0 in Hm. }
    eapply pp_use; [apply (abs_main _ s [] t (getTreeKey k)); [exact Hr|exact Hnd|exact Hst|exact Hni|by eapply contents_room|cbn [length]; lia]|].
    intros [[nr lr] fl] s' (E2 & ot' & q & E1 & HU & _ & Hq & Hot). cbn [fst snd] in E1, E2. subst nr lr. cbn beta iota.
    destruct (upd_t _ _ _ HU) as [mx Et].
    assert (Hnear : nearM m k -> q `prefix_of` k ++ [dollar]).
    { intros Hnr. apply Hq; [|apply prefix_nil]. intros k1 v1 Hk1. apply Hc in Hk1 as (k0 & -> & Hk0). apply Hnr. eauto. }
    destruct ot' as [t'|]; cbn [fmap option_fmap option_map].
    + destruct Hot as ((Hr' & Hnd' & Hfp') & Hl'). apply pp_bind, pp_wp. apply wp_bind, wp_getT. apply wp_putT. apply pp_ret.
      split; [done|]. split; [cbn; by rewrite Et|]. exists q. split; [|done]. eapply holds_tree; [exact Hr'|done|done|].
      intros k1 v1. rewrite Hl', (Hc k1 v1). split.
      * intros [(k0 & -> & Hk0) Hp]. exists k0. split; [done|]. by apply cut_Some.
      * intros (k0 & -> & [Hk0 Hp]%cut_Some). eauto.
    + apply pp_bind, pp_wp. apply installEmptyRoot_phantom. intros s2 Hph E1 E2. apply pp_ret.
      split; [done|]. split; [rewrite E1, Et; done|]. exists q. split; [|done]. apply holds_empty; [|done].
      apply map_eq. intros k1. rewrite lookup_empty. destruct (cut q m !! k1) as [v1|] eqn:E; [|done]. apply cut_Some in E as [E Hp].
      exfalso. apply Hp. apply (Hot _ v1). apply Hc. eauto.
Qed.

Lemma hsim_pp {A} (m m0 : M (heap V) A) h Q : hsim id m m0 -> pp m0 Q (er_h h) -> pp m (fun a h' => Q a (er_h h')) h.
Proof.
  intros Hs Hw a h' E. specialize (Hs h). rewrite E in Hs. cbn in Hs. by apply Hw.
Qed.
Lemma delete_absent (m : kmap) h t (x : nat) (k : bytes) h' t' r : tree_ok (er_h h) t m x -> valid_key k -> m !! k = None -> roomy m ->
  treeDelete t k h = (Ok (t', r), h') ->
  r = (go_zero, false) /\ r_size t' = r_size t /\ exists q, holds false (er_h h') (r_root t') (cut q m) /\ (nearM m k -> q `prefix_of` (k ++ [dollar])).
Proof.
  intros (Hh & Hsz & Hx) Hv Hm Hroom. revert t' r h'.
  assert (Hp : pp (treeDelete t k) (fun p h' => p.2 = (go_zero, false) /\ r_size p.1 = r_size t /\
    exists q, holds false (er_h h') (r_root p.1) (cut q m) /\ (nearM m k -> q `prefix_of` (k ++ [dollar]))) h).
  { eapply pp_mono; [eapply (hsim_pp _ _ h (fun p h' => p.2 = (go_zero, false) /\ r_size p.1 = r_size t /\
      exists q, holds false h' (r_root p.1) (cut q m) /\ (nearM m k -> q `prefix_of` (k ++ [dollar])))); [apply hsim_withTxn, sim_txnDelete|]|done].
    intros [t' r] h' E. unfold ewithTxn in E. destruct (enewTxn_spec false _ t m Hh) as (r1 & h1 & E1 & Hh1). rewrite E1 in E.
    set (s1 := mkS h1 _) in *. assert (Ht : tstate true s1 m x) by (split; [exact Hh1|done]).
    destruct (etxnDelete k s1) as [[a| |] s2] eqn:E2; [|done..]. injection E as <- <- <-.
    destruct (etxnDelete_absent _ _ _ _ (proj1 Ht) Hv Hm Hroom _ _ E2) as (-> & Es & Hq). split; [done|]. split; [exact Es|exact Hq]. }
  intros t' r h' E. apply (Hp (t', r) h' E).
Qed.
End AbsDel.
