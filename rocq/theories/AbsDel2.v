(** Delete of a key that is not stored, exactly: where it ends at an inner node, and no stored key agrees with it on ten
    bytes. *)
From Verif Require Export AbsDel Thin SpecAbsent SpecLossy.
From stdpp Require Export list.
Local Open Scope nat_scope.

Section AbsDel.
Context {V : Type} `{GoZero V}.
Notation art := (art V).
Notation TM := (M (st V)).
Notation nd s := (h_nodes (s_h s)).
Notation lv s := (h_leaves (s_h s)).
Notation nx s := (h_next (s_h s)).

(** Two keys of t part after q; two keys of t start with q; q is the longest beginning of key that keys of t have. *)
Definition partT (t : art) (q : bytes) : Prop := exists k1 v1 k2 v2 b1 b2, (k1, v1) ∈ leaves t /\ (k2, v2) ∈ leaves t /\ b1 <> b2 /\
  (q ++ [b1]) `prefix_of` k1 /\ (q ++ [b2]) `prefix_of` k2.
Definition twoT (t : art) (q : bytes) : Prop := exists k1 v1 k2 v2, (k1, v1) ∈ leaves t /\ (k2, v2) ∈ leaves t /\ k1 <> k2 /\
  q `prefix_of` k1 /\ q `prefix_of` k2.
Definition mostT (t : art) (key q : bytes) : Prop := forall q' k v, (k, v) ∈ leaves t -> q' `prefix_of` k -> q' `prefix_of` key -> q' `prefix_of` q.

Definition exact_post (s : st V) (p : bytes) (t : art) (key q0 : bytes) (r : option addr * option ref * bool) (s' : st V) : Prop :=
  r.1.2 = None /\ exists ot' q, r.1.1 = aroot <$> ot' /\ upd (fun x => x ∈ fp t) s s' /\
    ((q = q0 /\ partT t q0) \/ (q = key /\ ~ partT t q0)) /\
    match ot' with
    | None => forall k v, (k, v) ∈ leaves t -> q `prefix_of` k
    | Some t' => del_tree s p t t' s' /\ (forall k v, (k, v) ∈ leaves t' <-> (k, v) ∈ leaves t /\ ~ q `prefix_of` k)
    end.

Definition exactP (fuel : nat) : Prop := forall (s : st V) p t key q0, rep (s_h s) p t -> NoDup (fp t) -> stored key ->
  (forall v, (key, v) ∉ leaves t) -> room t -> length key - length p + 1 <= fuel ->
  nearT key t -> p `prefix_of` key -> q0 `prefix_of` key -> twoT t q0 -> mostT t key q0 -> ~ thin p t q0 ->
  wp (erecursiveDelete fuel (Some (aroot t)) key (length p)) (exact_post s p t key q0) s.

Lemma exact_same (s : st V) p t key q0 b : rep (s_h s) p t -> NoDup (fp t) -> stored key -> (forall v, (key, v) ∉ leaves t) -> ~ partT t q0 ->
  exact_post s p t key q0 (Some (aroot t), None, b) s.
Proof.
  intros Hr Hnd Hk Hni Hnp. split; [done|]. exists (Some t), key. split; [done|]. split; [apply upd_refl|]. split; [by right|].
  split; [split_and!; [done|done|by left]|]. intros k v. split; [|by intros [? _]]. intros Hkv. split; [done|].
  intros Hp. destruct (rep_leaves _ _ _ _ _ Hr Hkv) as [_ Hs]. assert (key = k) as -> by by apply stored_prefix_free. by apply Hni in Hkv.
Qed.

(** An inner node that is not thin: two of its keys part after its path. *)
Lemma node_parts (h : heap V) p a pre lf kids : rep h p (Art a pre lf kids) -> kids <> [] -> ~ thin p (Art a pre lf kids) (p ++ pre) ->
  partT (Art a pre lf kids) (p ++ pre).
Proof.
  intros Hr Hne Hth. pose proof (rep_sorted _ _ _ _ _ _ Hr) as Hsor. pose proof Hr as Hr0.
  apply rep_inv in Hr as (n & Hn & Hlt & He & Hpl & Hlf & Hk1 & Hk2 & Hk3 & Hst & Hkids).
  assert (Hkid : forall b t, (b, t) ∈ kids -> exists k v, (k, v) ∈ leaves (Art a pre lf kids) /\ ((p ++ pre) ++ [b]) `prefix_of` k).
  { intros b t Hbt. destruct (rep_nonempty _ _ _ (Hkids b t Hbt)) as (k & v & Hkv). exists k, v. split; [apply elem_leaves; right; eauto|].
    rewrite <- app_assoc. by eapply rep_leaves_kid. }
  destruct kids as [|[b1 t1] kids]; [done|]. destruct (Hkid b1 t1 ltac:(left)) as (k1 & v1 & H1 & P1).
  destruct lf as [[[la k2] v2]|].
  - exists k1, v1, k2, v2, b1, dollar. split; [done|]. split; [apply elem_leaves; left; eauto|]. destruct (Hk3 _ _ _ eq_refl) as [_ Hd]. destruct (Hd Hne) as [-> Hd2].
    split; [intros ->; apply Hd2; left|]. split; [done|]. by rewrite <- app_assoc.
  - destruct kids as [|[b2 t2] kids]; [destruct Hth; constructor|]. destruct (Hkid b2 t2 ltac:(right; left)) as (k2 & v2 & H2 & P2).
    exists k1, v1, k2, v2, b1, b2. split; [done|]. split; [done|]. split; [|done]. intros ->. cbn in Hsor. apply NoDup_cons in Hsor as [Hx _]. apply Hx. left.
Qed.

Lemma exact_main fuel : exactP fuel.
Proof.
  induction fuel as [|fuel IH]; intros s p t key q0 Hr Hnd Hsk Hni Hroom Hf Hnr Hp Hq0 Htwo Hmost Hthin; [lia|].
  destruct t as [a pre lf kids]. pose proof Hr as Hr0.
  pose proof (room_kids _ _ _ _ _ _ Hr (Hroom _)) as Hfull. pose proof (rep_sorted _ _ _ _ _ _ Hr) as Hsor.
  apply rep_inv in Hr as (n & Hn & Hlt & He & Hpl & Hlf & Hk1 & Hk2 & Hk3 & Hst & Hkids).
  assert (Hne : kids <> []).
  { intros ->. destruct (Hk2 eq_refl) as (la & k & v & -> & _). destruct Htwo as (k1 & v1 & k2 & v2 & H1 & H2 & Hd & _).
    rewrite leaves_eq in H1, H2. cbn in H1, H2. apply elem_of_list_singleton in H1, H2. congruence. }
  destruct (Hk1 Hne) as (Hpn & Hpt & Hndp). clear Hk2.
  cbn [erecursiveDelete aroot]. apply wp_bind. eapply wp_loadN; [exact Hn|]. rewrite leafMatches_nil by done. rewrite andb_false_r.
  assert (Hhit : forall (Q : option addr -> st V -> Prop), Q None s ->
    wp (match n_leaf n with
     | Some nodeL => let! nl := loadL nodeL in ret (if leafMatches (l_key nl) key then Some nodeL else None)
     | None => ret None end) Q s).
  { intros Q HQ2. destruct lf as [[[la k] v0]|]; cbn in Hlf.
    - destruct Hlf as (-> & _ & l & Hl & Hlk & Hlv). apply wp_bind. eapply wp_loadL; [exact Hl|]. apply wp_ret. rewrite Hlk.
      destruct (leafMatches k key) eqn:Em; [|done]. apply leafMatches_true in Em as ->. exfalso. apply (Hni v0). apply elem_leaves. left. eauto.
    - rewrite Hlf. by apply wp_ret. }
  apply wp_bind. apply Hhit; clear Hhit.
  assert (Hsome : exists k v, (k, v) ∈ leaves (Art a pre lf kids)) by (destruct Htwo as (k1 & v1 & _ & _ & H1 & _); eauto).
  assert (Hbail : forall (Q : bool -> st V -> Prop), (~ (p ++ pre) `prefix_of` key -> Q true s) -> ((p ++ pre) `prefix_of` key -> Q false s) ->
    wp (if Nat.ltb 0 (n_plen n) then
           let! prefixLen := lift (checkPrefix (n_partial n) (n_plen n) key (length p)) in
           ret (negb (Nat.eqb prefixLen (maxPrefixLen `min` n_plen n)))
         else ret false) Q s).
  { intros Q HQ1 HQ2. destruct Hsome as (k & v & Hkv). pose proof (rep_leaves_pre _ _ _ _ _ _ _ _ Hr0 Hne Hkv) as Hpk.
    assert (Hstep : (n_plen n > 0 -> checkPrefix (n_partial n) (n_plen n) key (length p) = Ok (maxPrefixLen `min` n_plen n)) -> (p ++ pre) `prefix_of` key).
    { intros Hc. eapply (near_step (n_partial n) pre p key k); try done. by eapply Hnr. }
    destruct (Nat.ltb_spec 0 (n_plen n)); [|apply wp_ret; apply HQ2, Hstep; lia]. apply wp_bind. eapply wp_lift; [by apply checkPrefix_ok|].
    apply wp_ret. rewrite checkPrefix_ok in Hstep by done. match goal with |- Q (negb (?x =? ?y)) _ => destruct (Nat.eqb_spec x y) as [E|E] end; [apply HQ2, Hstep; by rewrite E|].
    apply HQ1. intros [x ->]. pose proof (checkPrefix_match (n_partial n) pre p x Hpl Hpt) as E2. rewrite checkPrefix_ok in E2 by done. apply E.
    rewrite Hpn, <- app_assoc. by injection E2. }
  apply wp_bind. apply Hbail; clear Hbail.
  { intros Hmis. apply wp_ret. eapply (exact_same s p (Art a pre lf kids)); [done..|].
    intros (k1 & v1 & k2 & v2 & b1 & b2 & H1 & H2 & Hb & P1 & P2).
    pose proof (rep_leaves_pre _ _ _ _ _ _ _ _ Hr0 Hne H1) as Q1. pose proof (rep_leaves_pre _ _ _ _ _ _ _ _ Hr0 Hne H2) as Q2.
    assert (Hc : exists c r, p ++ pre = q0 ++ c :: r).
    { assert (P1' : q0 `prefix_of` k1) by (etrans; [|exact P1]; by exists [b1]).
      destruct (prefix_weak_total _ _ _ P1' Q1) as [[[|c r] E]|Hx]; [|eauto|].
      - exfalso. apply Hmis. rewrite E, app_nil_r. done.
      - exfalso. apply Hmis. by etrans. }
    destruct Hc as (c & r & E). assert (Hqc : (q0 ++ [c]) `prefix_of` (p ++ pre)) by (exists r; by rewrite <- app_assoc).
    apply Hb. transitivity c; [|symmetry]; eapply prefix_inj_byte; [exact P1|by etrans|exact P2|by etrans]. }
  intros Hpp. cbv zeta.
  assert (Hb : exists b, key !! (length p + n_plen n) = Some b /\ (p ++ pre ++ [b]) `prefix_of` key).
  { destruct Hpp as [[|b x] E].
    - exfalso. rewrite app_nil_r in E. destruct Hndp as (b & x & Hs). rewrite <- E in Hs.
      assert (Ek : key = key ++ b :: x) by (apply stored_prefix_free; [done|done|by exists (b :: x)]). apply (f_equal length) in Ek. rewrite app_length in Ek. cbn in Ek. lia.
    - exists b. rewrite E, Hpn. split; [|exists x; by rewrite <- !app_assoc]. rewrite lookup_app_r by (rewrite app_length; lia). by rewrite app_length, Nat.sub_diag. }
  destruct Hb as (b & Hb & Hpb). apply wp_bind. eapply wp_byteAt; [exact Hb|].
  assert (Hb256 : b < 256).
  { apply elem_of_list_lookup_2 in Hb. destruct Hsk as (k0 & -> & Hv). apply elem_of_app in Hb as [Hb|Hb].
    - cbn in Hv. unfold valid_key in Hv. rewrite Forall_forall in Hv. by apply Hv.
    - apply elem_of_list_singleton in Hb as ->. unfold dollar. lia. }
  destruct (alook (ents kids) b) as [c|] eqn:Ealook.
  2:{ apply wp_bind. eapply wp_lift; [by apply (findChild_None n (ents kids) b)|]. cbn beta iota. apply wp_ret.
      assert (E : q0 = p ++ pre).
      { destruct Hsome as (k & v & Hkv). pose proof (Hmost (p ++ pre) k v Hkv (rep_leaves_pre _ _ _ _ _ _ _ _ Hr0 Hne Hkv) Hpp) as [x Ex].
        destruct x as [|b' x]; [by rewrite app_nil_r in Ex|]. exfalso.
        assert (b' = b) as ->.
        { eapply (prefix_inj_byte' p pre); [|exact Hpb]. etrans; [|exact Hq0]. exists x. rewrite Ex. by rewrite <- !app_assoc. }
        destruct Htwo as (k1 & v1 & _ & _ & H1 & _ & _ & P1 & _).
        assert (Q1 : (p ++ pre ++ [b]) `prefix_of` k1) by (etrans; [|exact P1]; exists x; rewrite Ex; by rewrite <- !app_assoc).
        apply elem_leaves in H1 as [(la & ->)|(b2 & t2 & Hbt & H1)].
        - destruct (Hk3 _ _ _ eq_refl) as [Hs1 Hk]. destruct (Hk Hne) as [-> _]. assert (b = dollar) as -> by (by eapply (prefix_inj_byte' p pre)).
          apply (Hni v1). replace key with (p ++ pre ++ [dollar]) by (by apply stored_prefix_free). apply elem_leaves. left. eauto.
        - assert (b2 = b) as -> by (eapply (prefix_inj_byte' p pre); [by eapply rep_leaves_kid|done]).
          apply alook_None in Ealook. apply Ealook. rewrite ents_fst. apply elem_of_list_fmap. by exists (b, t2). }
      split; [done|]. exists None, q0. split; [done|]. split; [apply upd_refl|]. split; [left; split; [done|rewrite E; eapply node_parts; [done|done|by rewrite <- E]]|].
      intros k v Hkv. rewrite E. by eapply rep_leaves_pre. }
  apply alook_Some_elem, elem_ents in Ealook as (tc & Hbt & _).
  assert (Hpq : (p ++ pre ++ [b]) `prefix_of` q0).
  { destruct (rep_nonempty _ _ _ (Hkids _ _ Hbt)) as (k & v & Hkv). apply (Hmost _ k v); [apply elem_leaves; right; eauto|by eapply rep_leaves_kid|done]. }
  assert (Hdown : forall k v, (k, v) ∈ leaves (Art a pre lf kids) -> q0 `prefix_of` k -> (k, v) ∈ leaves tc).
  { intros k v Hkv Hqk. assert (Hk : (p ++ pre ++ [b]) `prefix_of` k) by (by etrans). apply elem_leaves in Hkv as [(la & E)|(b2 & t2 & Hbt2 & Hkv)].
    - exfalso. destruct (Hk3 _ _ _ E) as [_ Hx]. destruct (Hx Hne) as [E2 Hd]. apply Hd. rewrite E2 in Hk.
      rewrite (prefix_inj_byte' p pre dollar b (p ++ pre ++ [dollar])) by done. apply elem_of_list_fmap. by exists (b, tc).
    - assert (b2 = b) as -> by (eapply (prefix_inj_byte' p pre); [by eapply rep_leaves_kid|done]). by rewrite (kids_unique kids b tc t2). }
  assert (Hpart : partT (Art a pre lf kids) q0 <-> partT tc q0).
  { split; intros (k1 & v1 & k2 & v2 & b1 & b2 & H1 & H2 & Hd & P1 & P2); exists k1, v1, k2, v2, b1, b2.
    - split; [apply Hdown; [done|etrans; [|exact P1]; by exists [b1]]|]. split; [apply Hdown; [done|etrans; [|exact P2]; by exists [b2]]|done].
    - split; [apply elem_leaves; right; eauto|]. split; [apply elem_leaves; right; eauto|done]. }
  apply elem_of_list_split in Hbt as (k1 & k2 & ->).
  pose proof He as He0. rewrite ents_app in He0.
  destruct (enc_set _ _ _ _ _ He0) as (idx & Hfc & _). cbn [fst snd] in Hfc. apply wp_bind. eapply wp_lift; [exact Hfc|]. cbn beta iota.
  assert (Hbt : (b, tc) ∈ k1 ++ (b, tc) :: k2) by (apply elem_of_app; right; left).
  assert (Hfp : fp (Art a pre lf (k1 ++ (b, tc) :: k2)) = a :: (lfa lf ++ kfp k1) ++ fp tc ++ kfp k2).
  { by rewrite fp_eq, kfp_app, kfp_cons, app_assoc. }
  assert (Hndt : NoDup ((lfa lf ++ kfp k1) ++ fp tc ++ kfp k2) /\ a ∉ (lfa lf ++ kfp k1) ++ fp tc ++ kfp k2).
  { rewrite Hfp in Hnd. by apply NoDup_cons in Hnd as [? ?]. }
  destruct Hndt as [Hndt Hat].
  assert (Hndc : NoDup (fp tc)) by (apply NoDup_app in Hndt as (_ & _ & Hx); by apply NoDup_app in Hx as (? & _)).
  (* keys outside the child do not start with its path *)
  assert (Hone : forall q k v0, outside lf (k1 ++ k2) k v0 -> (p ++ pre ++ [b]) `prefix_of` q \/ q = key -> ~ q `prefix_of` k).
  { intros q k v0 Ho [Hq| ->].
    - intros [z Hz]. refine (outside_ne _ _ _ _ _ _ _ _ b k k v0 Hr0 Hne _ _ _ _ Ho eq_refl).
      + intros y Hy. apply elem_mid. by right.
      + rewrite fmap_app, fmap_cons in Hsor. rewrite fmap_app. by apply NoDup_mid in Hsor.
      + intros la k0 v1 E ->. destruct (Hk3 _ _ _ E) as [_ Hk]. destruct (Hk Hne) as [_ Hd]. apply Hd. rewrite fmap_app. cbn. mem.
      + etrans; [exact Hq|]. by exists z.
    - intros Hq. assert (Hkv : (k, v0) ∈ leaves (Art a pre lf (k1 ++ (b, tc) :: k2))) by (apply leaves_split; by left).
      destruct (rep_leaves _ _ _ _ _ Hr0 Hkv) as [_ Hs]. assert (key = k) as -> by by apply stored_prefix_free. by apply Hni in Hkv. }
  replace (length p + n_plen n + 1) with (length (p ++ pre ++ [b])) by (rewrite !app_length, Hpn; cbn; lia).
  eapply wp_use; [eapply (IH s (p ++ pre ++ [b]) tc key q0); try done|].
  { by apply Hkids. } { intros v Hv. apply (Hni v). apply leaves_split. by right. } { by eapply room_kid. }
  { apply lookup_lt_Some in Hb. rewrite !app_length, <- Hpn. cbn [length]. lia. }
  { by eapply nearT_kid. }
  { destruct Htwo as (x1 & y1 & x2 & y2 & H1 & H2 & Hd & P1 & P2). exists x1, y1, x2, y2. split; [by apply Hdown|]. by split; [apply Hdown|]. }
  { intros q' k v Hkv. apply (Hmost q' k v). apply leaves_split. by right. }
  { intros Hx. apply Hthin. by eapply thin_kid. }
  intros [[newChild val] mut] s1 (Ev & ot' & q & Er & HU1 & Hqp & Hot). cbn [fst snd] in *. subst newChild val.
  rewrite orb_false_r. cbn [is_some].
  rewrite <- Hpart in Hqp.
  assert (Hq : (p ++ pre ++ [b]) `prefix_of` q \/ q = key) by (destruct Hqp as [[-> _]|[-> _]]; auto).
  destruct ot' as [tc'|]; cbn [fmap option_fmap option_map].
  - destruct Hot as (Htr & Hlv).
    assert (Hpost : forall a' s2, upd (fun x => x ∈ fp (Art a pre lf (k1 ++ (b, tc) :: k2))) s s2 ->
      del_tree s p (Art a pre lf (k1 ++ (b, tc) :: k2)) (Art a' pre lf (k1 ++ (b, tc') :: k2)) s2 ->
      exact_post s p (Art a pre lf (k1 ++ (b, tc) :: k2)) key q0 (Some a', None, mut) s2).
    { intros a' s2 HU2 Htr2. split; [done|]. exists (Some (Art a' pre lf (k1 ++ (b, tc') :: k2))), q. cbn [fst snd]. split; [done|]. split; [done|].
      split; [done|]. split; [done|]. intros k v0. rewrite !leaves_split, Hlv. specialize (Hone q k v0). tauto. }
    destruct (opt_addr_eqb (Some (aroot tc')) (Some (aroot tc))) eqn:Eq; cbn [negb].
    + unfold opt_addr_eqb in Eq. case_bool_decide as Eq2; [|done]. clear Eq. injection Eq2 as Eq. destruct (same_kid s s1 p a pre lf k1 b tc tc' k2) as (Hn2 & HU2 & Htr2); try done.
      apply wp_bind, wp_ret. apply wp_bind. eapply wp_loadN; [rewrite Hn2; exact Hn|].
      rewrite (enc_nch _ _ He). unfold ents. rewrite fmap_length, u8_small by done.
      destruct (Nat.eqb_spec (length (k1 ++ (b, tc) :: k2)) 0) as [E0|_]; [destruct k1; done|]. apply wp_ret. by apply Hpost.
    + eapply wp_use; [eapply (set_kid s s1 p a pre lf k1 b tc tc' k2 n idx); done|].
      intros a' s2 ((n2 & Hn2 & Hnch) & HU2 & Hlv2 & Htr2 & _). apply wp_bind. eapply wp_loadN; [exact Hn2|].
      rewrite Hnch, (enc_nch _ _ He). unfold ents. rewrite fmap_length, u8_small by done.
      destruct (Nat.eqb_spec (length (k1 ++ (b, tc) :: k2)) 0) as [E0|_]; [destruct k1; done|]. apply wp_ret. by apply Hpost.
  - assert (Hlv : forall k v0, (k, v0) ∈ leaves (Art a pre lf (k1 ++ (b, tc) :: k2)) /\ ~ q `prefix_of` k <-> outside lf (k1 ++ k2) k v0).
    { intros k v0. rewrite leaves_split. specialize (Hone q k v0). specialize (Hot k v0). tauto. }
    cbn [opt_addr_eqb negb].
    destruct (decide (n_kind n = K4 /\ length (k1 ++ k2) = 1 /\ lf = None)) as [(Hkind & Hlen & ->)|Hnm].
    + destruct (k1 ++ k2) as [|[b2 t2] [|? ?]] eqn:Ek; try done.
      assert (Hbt2 : (b2, t2) ∈ k1 ++ (b, tc) :: k2) by (apply elem_mid; right; rewrite Ek; left).
      eapply wp_use; [eapply (merge_kid s s1 p a pre k1 b tc k2 n idx b2 t2); try done|].
      { pose proof (Hkids _ _ Hbt2) as Hr2. destruct t2 as [c2 pre2 lf2 kids2]. eapply room_kids; [exact Hr2|]. apply (room_kid _ _ _ _ _ _ Hroom Hbt2). }
      intros a' s2 (HU2 & Hlv2 & n2 & t' & Hn2 & -> & Hnl & Htr & Hlt' & _). apply wp_bind. eapply wp_loadN; [exact Hn2|].
      assert (Hpost : exact_post s p (Art a pre None (k1 ++ (b, tc) :: k2)) key q0 (Some (aroot t'), None, mut) s2).
      { split; [done|]. exists (Some t'), q. cbn [fst snd]. split; [done|]. split; [done|]. split; [done|]. split; [done|].
        intros k v0. rewrite Hlv, Hlt'. unfold outside. split.
        - intros Hx. right. exists b2, t2. split; [left|done].
        - intros [(? & [=])|(b' & t & Hx & Hy)]. apply elem_of_list_singleton in Hx. by injection Hx as -> ->. }
      destruct (Nat.eqb_spec (n_nch n2) 0) as [E0|_]; [|by apply wp_ret]. destruct (n_leaf n2); [by apply wp_ret|]. by destruct (Hnl E0).
    + eapply wp_use; [eapply (drop_kid s s1 p a pre lf k1 b tc k2 n idx); done|].
      intros a' s2 (HU2 & Hlv2 & Hkp2 & n2 & lf' & Hn2 & [Hnch _] & Hlf2 & Hmv & Htr). apply wp_bind. eapply wp_loadN; [exact Hn2|].
      assert (Hout' : forall k v0, outside lf' (k1 ++ k2) k v0 <-> outside lf (k1 ++ k2) k v0).
      { intros k v0. unfold outside. destruct lf as [[[la1 k3] v3]|], lf' as [[[la2 k4] v4]|]; try done.
        destruct Hmv as (-> & -> & _). split; (intros [(? & [= <- <- <-])|Hx]; [left; eauto|by right]). }
      assert (Hpost : lf <> None \/ k1 ++ k2 <> [] ->
         exact_post s p (Art a pre lf (k1 ++ (b, tc) :: k2)) key q0 (Some a', None, mut) s2).
      { intros Hs. split; [done|]. exists (Some (Art a' pre lf' (k1 ++ k2))), q. cbn [fst snd]. split; [done|]. split; [done|]. split; [done|]. split; [by apply Htr|].
        intros k v0. rewrite Hlv, <- Hout'. apply elem_leaves. }
      rewrite app_length in Hfull. cbn in Hfull. rewrite u8_small in Hnch by (rewrite app_length; lia).
      rewrite Hnch. destruct (Nat.eqb_spec (length (k1 ++ k2)) 0) as [E0|E0].
      * apply nil_length_inv in E0. destruct lf' as [[[la2 k4] v4]|]; cbn in Hlf2.
        -- destruct Hlf2 as (-> & _). apply wp_ret. apply Hpost. left. by destruct lf.
        -- rewrite Hlf2. apply wp_ret. split; [done|]. exists None, q. cbn [fst snd]. split; [done|]. split; [done|]. split; [done|].
           intros k v0 Hx. apply leaves_split in Hx as [[(la1 & ->)|(b' & t & Hx & _)]|Hx]; [done| |by eapply Hot].
           rewrite E0 in Hx. by apply elem_of_nil in Hx.
      * apply wp_ret. apply Hpost. right. by intros E1; rewrite E1 in E0.
Qed.

(** ** A transaction, a tree *)
Notation kmap := (gmap (list nat) V).
Lemma contents_parts (t : art) (m : kmap) q : contents t m -> (partT t q <-> parts m q).
Proof.
  intros Hc. split.
  - intros (k1 & v1 & k2 & v2 & b1 & b2 & H1 & H2 & Hb & P1 & P2). apply Hc in H1 as (x1 & -> & H1). apply Hc in H2 as (x2 & -> & H2).
    exists x1, x2, b1, b2. rewrite H1, H2. split_and!; eauto.
  - intros (k1 & k2 & b1 & b2 & [v1 H1] & [v2 H2] & Hb & P1 & P2). exists (k1 ++ [dollar]), v1, (k2 ++ [dollar]), v2, b1, b2.
    split; [apply Hc; eauto|]. split; [apply Hc; eauto|done].
Qed.

Definition absent_exact (s : st V) (m : kmap) (k q : bytes) (r : V * bool) (s' : st V) : Prop :=
  r = (go_zero, false) /\ t_size (s_t s') = t_size (s_t s) /\
  (parts m q -> holds false (s_h s') (t_root (s_t s')) (cut q m)) /\ (~ parts m q -> holds false (s_h s') (t_root (s_t s')) m).

Lemma etxnDelete_exact (D : bytes -> Prop) (s : st V) (m : kmap) (k q : bytes) : slim D (s_h s) (t_root (s_t s)) m -> valid_key k -> m !! k = None -> roomy m ->
  nearM m k -> leaves_at m k q -> ~ D q -> wp (etxnDelete k) (absent_exact s m k q) s.
Proof.
  intros Hsl Hv Hm Hroom Hnr (Hq & (x1 & x2 & [v1 H1] & [v2 H2] & Hd & P1 & P2) & Hmost) HD. unfold etxnDelete, delete_fuel. apply wp_bind, wp_getT.
  pose proof (stored_tree k Hv) as Hst.
  destruct Hsl as [->|(t & Hr & Hnd & Hroot & Hc & Hth)]; [by rewrite lookup_empty in H1|]. rewrite Hroot.
  assert (Hni : forall v, (getTreeKey k, v) ∉ leaves t).
  { intros v Hin. apply Hc in Hin as (k0 & E & Hk0). apply app_inj_tail in E as [-> _]. by rewrite Hk0 in Hm. }
  eapply wp_use; [apply (exact_main _ s [] t (getTreeKey k) q); [exact Hr|exact Hnd|exact Hst|exact Hni|by eapply contents_room|cbn [length]; lia|..]|].
  { intros k1 w1 Hk1. apply Hc in Hk1 as (k0 & -> & Hk0). apply Hnr. eauto. }
  { apply prefix_nil. } { exact Hq. }
  { exists (x1 ++ [dollar]), v1, (x2 ++ [dollar]), v2. split; [apply Hc; eauto|]. split; [apply Hc; eauto|]. split; [|done]. by intros [E _]%app_inj_tail. }
  { intros q' k1 w1 Hk1. apply Hc in Hk1 as (k0 & -> & Hk0). apply Hmost. eauto. }
  { intros Hx. by apply HD, Hth. }
  intros [[nr lr] fl] s' (E2 & ot' & q1 & E1 & HU & Hqp & Hot). cbn [fst snd] in E1, E2. subst nr lr. cbn beta iota.
  destruct (upd_t _ _ _ HU) as [mx Et]. rewrite (contents_parts _ _ _ Hc) in Hqp.
  assert (Hmap : cut (getTreeKey k) m = m).
  { apply map_eq. intros k1. destruct (m !! k1) as [w1|] eqn:Ek.
    - apply cut_Some. split; [done|]. intros Hp. assert (E : getTreeKey k = k1 ++ [dollar]).
      { apply stored_prefix_free; [done| |done]. refine (proj2 (rep_leaves _ _ t _ w1 Hr _)). apply Hc. eauto. }
      apply app_inj_tail in E as [-> _]. by rewrite Ek in Hm.
    - destruct (cut _ m !! k1) as [w|] eqn:E; [|done]. apply cut_Some in E as [E _]. by rewrite E in Ek. }
  assert (Hfin : forall s2 : st V, t_size (s_t s2) = t_size (s_t s') -> holds false (s_h s2) (t_root (s_t s2)) (cut q1 m) ->
     absent_exact s m k q (go_zero, false) s2).
  { intros s2 Es Hh. split; [done|]. split; [rewrite Es, Et; done|]. destruct Hqp as [[-> Hp]|[-> Hp]]; [by split|]. rewrite Hmap in Hh. by split. }
  destruct ot' as [t'|]; cbn [fmap option_fmap option_map].
  + destruct Hot as ((Hr' & Hnd' & Hfp') & Hl'). apply wp_bind. apply wp_bind, wp_getT. apply wp_putT. apply wp_ret. apply Hfin; [done|].
    eapply holds_tree; [exact Hr'|done|done|].
    intros k1 w1. rewrite Hl', (Hc k1 w1). split.
    * intros [(k0 & -> & Hk0) Hp]. exists k0. split; [done|]. by apply cut_Some.
    * intros (k0 & -> & [Hk0 Hp]%cut_Some). eauto.
  + apply wp_bind. apply installEmptyRoot_phantom. intros s2 Hph E1 E2. apply wp_ret. apply Hfin; [by rewrite E1|].
    apply holds_empty; [|done].
    apply map_eq. intros k1. rewrite lookup_empty. destruct (cut q1 m !! k1) as [w1|] eqn:E; [|done]. apply cut_Some in E as [E Hp].
    exfalso. apply Hp. apply (Hot _ w1). apply Hc. eauto.
Qed.

Lemma delete_exact (D : bytes -> Prop) (m : kmap) h t (x : nat) (k q : bytes) : tree_ok (er_h h) t m x -> slim D (er_h h) (r_root t) m ->
  valid_key k -> m !! k = None -> roomy m -> nearM m k -> leaves_at m k q -> ~ D q ->
  wp (treeDelete t k) (fun p h' => p.2 = (go_zero, false) /\ r_size p.1 = r_size t /\
    (parts m q -> holds false (er_h h') (r_root p.1) (cut q m)) /\ (~ parts m q -> holds false (er_h h') (r_root p.1) m)) h.
Proof.
  intros (Hh & Hsz & Hx) Hsl Hv Hm Hroom Hnr Hla HD.
  eapply wp_mono; [eapply (hsim_wp _ _ h (fun p h' => p.2 = (go_zero, false) /\ r_size p.1 = r_size t /\
    (parts m q -> holds false h' (r_root p.1) (cut q m)) /\ (~ parts m q -> holds false h' (r_root p.1) m))); [apply hsim_withTxn, sim_txnDelete|]|done].
  unfold wp, ewithTxn. destruct (enewTxn_spec false _ t m Hh) as (r1 & h1 & E1 & Hh1). rewrite E1.
  pose proof (enewTxn_slim D _ _ _ Hsl _ _ E1) as Hsl1. set (s1 := mkS h1 _) in *.
  pose proof (etxnDelete_exact D s1 m k q Hsl1 Hv Hm Hroom Hnr Hla HD) as Hw.
  apply wp_elim in Hw as (a & s2 & E2 & HQ). rewrite E2. exact HQ.
Qed.
End AbsDel.
