(** Delete: the main induction. *)
From Verif Require Export Delete2.
From stdpp Require Export list.
Local Open Scope nat_scope.

Lemma all_bytes (l : list nat) : NoDup l -> Forall (fun b => b < 256) l -> 256 <= length l -> forall b, b < 256 -> b ∈ l.
Proof.
  intros Hnd Hb Hlen b Hlt. destruct (decide (b ∈ l)) as [|Hni]; [done|exfalso].
  assert (Hsub : (b :: l) ⊆+ seq 0 256).
  { apply NoDup_submseteq; [by apply NoDup_cons|]. intros x Hx. apply elem_of_seq. rewrite Forall_forall in Hb.
    apply elem_of_cons in Hx as [->|Hx]; [lia|]. specialize (Hb _ Hx). lia. }
  apply submseteq_length in Hsub. rewrite seq_length in Hsub. cbn [length] in Hsub. lia.
Qed.

Section Delete.
Context {V : Type} `{GoZero V} {D : KeyDom}.
Notation art := (art V).
Notation TM := (M (st V)).
Notation nd s := (h_nodes (s_h s)).
Notation lv s := (h_leaves (s_h s)).
Notation nx s := (h_next (s_h s)).

(** Some byte does not continue q in any key of t. *)
Definition roomL (t : art) (q : bytes) : Prop :=
  exists b, b < 256 /\ forall k v, (k, v) ∈ leaves t -> ~ (q ++ [b]) `prefix_of` k.
(** ... for every q. *)
Definition room (t : art) : Prop := forall q, roomL t q.
(** ... where the deletion of key needs it. *)
Definition roomk (p : bytes) (t : art) (key : bytes) : Prop :=
  (forall q c k v, p `prefix_of` q -> (q ++ [c]) `prefix_of` key -> (k, v) ∈ leaves t -> k <> key -> (q ++ [c]) `prefix_of` k -> roomL t q) /\
  (forall q r, p `prefix_of` q -> q `prefix_of` key -> ~ (q ++ r) `prefix_of` key ->
     (forall k v, (k, v) ∈ leaves t -> k <> key -> q `prefix_of` k -> (q ++ r) `prefix_of` k) -> roomL t (q ++ r)).
Lemma room_roomk p t key : room t -> roomk p t key.
Proof. intros Hr. split; intros; apply Hr. Qed.

Lemma room_kids (h : heap V) p a pre lf kids : rep h p (Art a pre lf kids) -> roomL (Art a pre lf kids) (p ++ pre) -> length kids < 256.
Proof.
  intros Hr Hroom. destruct (decide (length kids < 256)) as [|Hge]; [done|exfalso].
  pose proof (rep_sorted _ _ _ _ _ _ Hr) as Hnd.
  apply rep_inv in Hr as (n & Hn & Hlt & He & Hpl & Hlf & Hk1 & Hk2 & Hk3 & Hst & Hkids).
  destruct Hroom as (b & Hb & Hno).
  assert (Hin : b ∈ kids.*1).
  { apply all_bytes; [done| |by rewrite fmap_length; lia|done]. pose proof (enc_byte _ _ He) as Hby. rewrite Forall_forall in Hby. apply Forall_forall.
    intros x Hx. apply elem_of_list_fmap in Hx as ([b' t] & -> & Hx). apply (Hby (b', aroot t)). apply elem_ents. eauto. }
  apply elem_of_list_fmap in Hin as ([b' t] & -> & Hx). cbn [fst] in *. destruct (rep_nonempty _ _ _ (Hkids _ _ Hx)) as (k & v & Hkv).
  apply (Hno k v); [apply elem_leaves; right; eauto|]. rewrite <- app_assoc. by destruct (rep_leaves _ _ _ _ _ (Hkids _ _ Hx) Hkv).
Qed.
Lemma room_kid a pre lf kids b (t : art) : room (Art a pre lf kids) -> (b, t) ∈ kids -> room t.
Proof.
  intros Hroom Hin q. destruct (Hroom q) as (b' & Hb & Hno). exists b'. split; [done|]. intros k v Hkv. apply (Hno k v).
  apply elem_leaves. right. eauto.
Qed.
Lemma rep_leaves_pre (h : heap V) p a pre lf kids k v : rep h p (Art a pre lf kids) -> kids <> [] -> (k, v) ∈ leaves (Art a pre lf kids) -> (p ++ pre) `prefix_of` k.
Proof.
  intros Hr Hne Hin. apply elem_leaves in Hin as [(la & ->)|(b & t & Hbt & Hin)].
  - apply rep_inv in Hr as (n & Hnn & Hlt & He & Hpl & Hlf & Hk1 & Hk2 & Hk3 & Hst & Hkids). destruct (Hk3 _ _ _ eq_refl) as [_ Hx].
    destruct (Hx Hne) as [-> _]. exists [dollar]. by rewrite <- app_assoc.
  - destruct (rep_leaves_kid _ _ _ _ _ _ _ _ _ _ Hr Hbt Hin) as [y ->]. exists (b :: y). by rewrite <- !app_assoc.
Qed.
Lemma roomk_kid (h : heap V) p a pre lf kids b (t : art) key : rep h p (Art a pre lf kids) -> (b, t) ∈ kids ->
  roomk p (Art a pre lf kids) key -> roomk (p ++ pre ++ [b]) t key.
Proof.
  intros Hr Hin [H1 H2]. assert (Hup : forall q, roomL (Art a pre lf kids) q -> roomL t q).
  { intros q (b' & Hb & Hno). exists b'. split; [done|]. intros k v Hkv. apply (Hno k v). apply elem_leaves. right. eauto. }
  assert (Hp : forall q, (p ++ pre ++ [b]) `prefix_of` q -> p `prefix_of` q) by (intros q [x ->]; rewrite <- app_assoc; by eexists).
  split.
  - intros q c k v Hq Hc Hkv Hne Hck. apply Hup. eapply (H1 q c k v); [by apply Hp|done| |done|done]. apply elem_leaves. right. eauto.
  - intros q r Hq Hk Hn Hall. apply Hup. apply H2; [by apply Hp|done|done|]. intros k v Hkv Hne Hqk. apply (Hall k v); [|done|done].
    apply elem_leaves in Hkv as [(la & ->)|(b' & t' & Hbt & Hkv)].
    + exfalso. pose proof (rep_leaves _ _ _ _ _ Hr ltac:(apply elem_leaves; left; eauto)) as [_ Hs].
      apply rep_inv in Hr as (n & Hnn & Hlt & He & Hpl & Hlf & Hk1 & Hk2 & Hk3 & Hst & Hkids). destruct (Hk3 _ _ _ eq_refl) as [_ Hx].
      destruct Hx as [-> Hd]; [intros ->; by apply elem_of_nil in Hin|]. apply Hd. destruct Hqk as [x Ex]. destruct Hq as [y ->].
      assert (dollar = b) as <-; [|apply elem_of_list_fmap; by exists (dollar, t)]. rewrite <- !app_assoc in Ex. apply app_inv_head, app_inv_head in Ex. by injection Ex.
    + destruct Hqk as [x ->]. destruct (rep_leaves_kid _ _ _ _ _ _ _ _ _ _ Hr Hbt Hkv) as [y E]. destruct Hq as [z ->].
      rewrite <- !app_assoc in E. apply app_inv_head, app_inv_head in E. injection E as <- E.
      pose proof (rep_sorted _ _ _ _ _ _ Hr) as Hs. assert (t' = t) as ->; [|done].
      apply elem_of_list_lookup in Hin as [i Hi]. apply elem_of_list_lookup in Hbt as [j Hj].
      assert (i = j) as <-; [|congruence]. eapply NoDup_lookup; [exact Hs|by rewrite list_lookup_fmap, Hi|by rewrite list_lookup_fmap, Hj].
Qed.

Definition delP (fuel : nat) : Prop := forall (s : st V) p t key v, rep (s_h s) p t -> NoDup (fp t) -> stored key ->
  (key, v) ∈ leaves t -> roomk p t key -> length key - length p + 1 <= fuel ->
  wp (erecursiveDelete fuel (Some (aroot t)) key (length p)) (del_post s p t key) s.

Lemma leafMatches_nil key : stored key -> leafMatches [] key = false.
Proof. intros (k & -> & _). apply leafMatches_false. by destruct k. Qed.

Lemma del_main fuel : delP fuel.
Proof.
  induction fuel as [|fuel IH]; intros s p t key v Hr Hnd Hsk Hin Hroom Hf; [lia|].
  destruct t as [a pre lf kids]. pose proof Hr as Hr0. pose proof (rep_leaves _ _ _ _ _ Hr Hin) as [Hpk _].
  pose proof (rep_sorted _ _ _ _ _ _ Hr) as Hsor.
  apply rep_inv in Hr as (n & Hn & Hlt & He & Hpl & Hlf & Hk1 & Hk2 & Hk3 & Hst & Hkids).
  cbn [erecursiveDelete aroot]. apply wp_bind. eapply wp_loadN; [exact Hn|]. rewrite leafMatches_nil by done. rewrite andb_false_r.
  (* own leaf? *)
  assert (Hhit : forall (Q : option addr -> st V -> Prop),
    (forall la v0, lf = Some (la, key, v0) -> Q (Some la) s) -> ((forall la v0, lf <> Some (la, key, v0)) -> Q None s) ->
    wp (match n_leaf n with
     | Some nodeL => let! nl := loadL nodeL in ret (if leafMatches (l_key nl) key then Some nodeL else None)
     | None => ret None end) Q s).
  { intros Q HQ1 HQ2. destruct lf as [[[la k] v0]|]; cbn in Hlf.
    - destruct Hlf as (-> & _ & l & Hl & Hlk & Hlv). apply wp_bind. eapply wp_loadL; [exact Hl|]. apply wp_ret. rewrite Hlk.
      destruct (leafMatches k key) eqn:Em.
      + apply leafMatches_true in Em as ->. by eapply HQ1.
      + apply leafMatches_false in Em. apply HQ2. intros la' v' [= -> -> ->]. done.
    - rewrite Hlf. apply wp_ret. by apply HQ2. }
  apply wp_bind. apply Hhit; clear Hhit.
  { intros la v0 ->. apply del_own; [done..|]. destruct (decide (length kids < 256)) as [|Hge]; [done|exfalso].
    destruct (Hk3 _ _ _ eq_refl) as [_ Hx]. destruct Hx as [_ Hd]; [intros ->; cbn in Hge; lia|]. apply Hd. apply all_bytes; [done| |by rewrite fmap_length; lia|unfold dollar; lia].
    pose proof (enc_byte _ _ He) as Hby. rewrite Forall_forall in Hby. apply Forall_forall.
    intros x Hx. apply elem_of_list_fmap in Hx as ([b' t] & -> & Hx). apply (Hby (b', aroot t)). apply elem_ents. eauto. }
  intros Hnlf. apply elem_leaves in Hin as [(la & E)|(b & tc & Hbt & Hin)]; [by edestruct Hnlf|].
  pose proof (rep_leaves _ _ _ _ _ (Hkids _ _ Hbt) Hin) as [Hpb _].
  assert (Hne : kids <> []) by (intros ->; by apply elem_of_nil in Hbt).
  destruct (Hk1 Hne) as (Hpn & Hpt & Hndp). destruct Hpb as [kx Ekx].
  assert (Ekey : key = p ++ pre ++ b :: kx) by (rewrite Ekx, <- !app_assoc; done).
  apply wp_bind.
  assert (Hbail : forall (Q : bool -> st V -> Prop), Q false s ->
    wp (if Nat.ltb 0 (n_plen n) then
           let! prefixLen := lift (checkPrefix (n_partial n) (n_plen n) key (length p)) in
           ret (negb (Nat.eqb prefixLen (maxPrefixLen `min` n_plen n)))
         else ret false) Q s).
  { intros Q HQ. destruct (Nat.ltb 0 (n_plen n)); [|by apply wp_ret]. apply wp_bind. eapply wp_lift.
    - rewrite Ekey, Hpn. by apply checkPrefix_match.
    - apply wp_ret. by rewrite Hpn, Nat.eqb_refl. }
  apply Hbail. clear Hbail. cbv zeta. apply wp_bind. apply (wp_byteAt _ _ b).
  { rewrite Ekey, Hpn. rewrite app_assoc, lookup_app_r by (rewrite app_length; lia). by rewrite app_length, Nat.sub_diag. }
  apply elem_of_list_split in Hbt as (k1 & k2 & ->).
  pose proof He as He0. rewrite ents_app in He0.
  destruct (enc_set _ _ _ _ _ He0) as (idx & Hfc & _). apply wp_bind. eapply wp_lift; [exact Hfc|]. cbn beta iota.
  assert (Hbt : (b, tc) ∈ k1 ++ (b, tc) :: k2) by (apply elem_of_app; right; left).
  assert (Hfp : fp (Art a pre lf (k1 ++ (b, tc) :: k2)) = a :: (lfa lf ++ kfp k1) ++ fp tc ++ kfp k2).
  { by rewrite fp_eq, kfp_app, kfp_cons, app_assoc. }
  assert (Hndt : NoDup ((lfa lf ++ kfp k1) ++ fp tc ++ kfp k2) /\ a ∉ (lfa lf ++ kfp k1) ++ fp tc ++ kfp k2).
  { rewrite Hfp in Hnd. by apply NoDup_cons in Hnd as [? ?]. }
  destruct Hndt as [Hndt Hat].
  assert (Hndc : NoDup (fp tc)) by (apply NoDup_app in Hndt as (_ & _ & Hx); by apply NoDup_app in Hx as (? & _)).
  assert (Hone : forall k v0, outside lf (k1 ++ k2) k v0 -> k <> key).
  { intros k v0. eapply (outside_ne _ _ _ _ _ _ _ _ b); try done.
    - intros x Hx. apply elem_mid. by right.
    - rewrite fmap_app, fmap_cons in Hsor. rewrite fmap_app. by apply NoDup_mid in Hsor.
    - intros la k0 v1 E ->. destruct (Hk3 _ _ _ E) as [_ Hk]. destruct (Hk Hne) as [_ Hd]. apply Hd. rewrite fmap_app. cbn. mem.
    - exists kx. by rewrite <- !app_assoc. }
  replace (length p + n_plen n + 1) with (length (p ++ pre ++ [b])) by (rewrite !app_length, Hpn; cbn; lia).
  eapply wp_use; [eapply (IH s (p ++ pre ++ [b]) tc key v); try done|].
  { by apply Hkids. } { by eapply roomk_kid. } { rewrite Ekey, !app_length in *. cbn [length] in *. lia. }
  intros [[newChild val] mut] s1 (ot' & Er & HU1 & (la & l & Ev & Hla & Hl & Hlkv) & Hot). cbn [fst snd] in *. subst newChild val.
  rewrite orb_true_r. cbn [is_some].
  assert (Hla2 : la ∈ fp (Art a pre lf (k1 ++ (b, tc) :: k2))) by (rewrite Hfp; mem).
  assert (Hlkv2 : (key, l_val l) ∈ leaves (Art a pre lf (k1 ++ (b, tc) :: k2))) by (apply leaves_split; by right).
  destruct ot' as [tc'|]; cbn [fmap option_fmap option_map].
  - destruct Hot as (Htr & Hlv & Hkp & Hth).
    assert (Hfull : length (k1 ++ (b, tc) :: k2) < 256).
    { eapply room_kids; [exact Hr0|]. destruct (rep_nonempty _ _ _ (proj1 Htr)) as (k' & v' & Hk'). apply Hlv in Hk' as [Hk' Hnk].
      eapply (proj1 Hroom (p ++ pre) b k' v'); [by eexists| |apply elem_leaves; right; eauto|done|].
      - exists kx. by rewrite Ekey, <- !app_assoc.
      - rewrite <- app_assoc. eapply rep_leaves_kid; [exact Hr0|exact Hbt|exact Hk']. }
    eapply wp_use; [eapply (set_kid s s1 p a pre lf k1 b tc tc' k2 n idx); done|].
    intros a' s2 ((n2 & Hn2 & Hnch) & HU2 & Hlv2 & Htr2 & Hkp2). apply wp_bind. eapply wp_loadN; [exact Hn2|].
    rewrite Hnch, (enc_nch _ _ He). unfold ents. rewrite fmap_length, u8_small by done.
    destruct (Nat.eqb_spec (length (k1 ++ (b, tc) :: k2)) 0) as [E0|_]; [destruct k1; done|]. apply wp_ret.
    exists (Some (Art a' pre lf (k1 ++ (b, tc') :: k2))). cbn [fst snd]. split; [done|]. split; [done|]. split.
    { exists la, l. rewrite Hlv2. done. }
    split; [done|]. split; [intros k v0; rewrite !leaves_split, Hlv; specialize (Hone k v0); tauto|]. split; [by apply Hkp2|].
    intros w Hw. apply (thin_set _ a _ _ _ _ tc) in Hw as [Hw|Hw]; [by left|]. apply Hth in Hw as [Hw|Hw]; [left|by right]. by eapply thin_kid.
  - assert (Hlv : forall k v0, (k, v0) ∈ leaves (Art a pre lf (k1 ++ (b, tc) :: k2)) /\ k <> key <-> outside lf (k1 ++ k2) k v0).
    { intros k v0. rewrite leaves_split. specialize (Hone k v0). specialize (Hot k v0). tauto. }
    assert (Hgone : forall x q, noded (p ++ pre ++ [b]) tc x q -> q `prefix_of` key).
    { intros x q Hx. destruct (noded_leaf _ _ _ _ _ (Hkids _ _ Hbt) Hx) as (k & v0 & Hk & Hq). by rewrite (Hot _ _ Hk) in Hq. }
    destruct (decide (n_kind n = K4 /\ length (k1 ++ k2) = 1 /\ lf = None)) as [(Hkind & Hlen & ->)|Hnm].
    + destruct (k1 ++ k2) as [|[b2 t2] [|? ?]] eqn:Ek; try done.
      assert (Hbt2 : (b2, t2) ∈ k1 ++ (b, tc) :: k2) by (apply elem_mid; right; rewrite Ek; left).
      eapply wp_use; [eapply (merge_kid s s1 p a pre k1 b tc k2 n idx b2 t2); try done|].
      { pose proof (Hkids _ _ Hbt2) as Hr2. destruct t2 as [c2 pre2 lf2 kids2]. destruct (decide (kids2 = [])) as [->|Hne2]; [cbn; lia|]. eapply room_kids; [exact Hr2|].
        assert (Hq2 : roomL (Art a pre None (k1 ++ (b, tc) :: k2)) ((p ++ pre) ++ b2 :: pre2)).
        { apply (proj2 Hroom); [by eexists|exists (b :: kx); by rewrite Ekey, <- !app_assoc| |].
          - intros [x E]. rewrite Ekey in E. rewrite <- !app_assoc in E. apply app_inv_head, app_inv_head in E. injection E as E _. subst b2.
            rewrite fmap_app, fmap_cons in Hsor. apply NoDup_mid in Hsor. apply Hsor. rewrite <- fmap_app, Ek. left.
          - intros k' v' Hk' Hnk _. assert (Hk2' : (k', v') ∈ leaves (Art c2 pre2 lf2 kids2)).
            { apply leaves_split in Hk' as [[(? & [=])|(b' & t & Hx & Hy)]|Hx]; [|by apply Hot in Hx]. rewrite Ek in Hx. apply elem_of_list_singleton in Hx. by injection Hx as -> ->. }
            replace ((p ++ pre) ++ b2 :: pre2) with ((p ++ pre ++ [b2]) ++ pre2) by by rewrite <- !app_assoc.
            by eapply rep_leaves_pre. }
        destruct Hq2 as (b' & Hb' & Hno). exists b'. split; [done|]. intros k' v' Hk'. specialize (Hno k' v'). replace ((p ++ pre ++ [b2]) ++ pre2) with ((p ++ pre) ++ b2 :: pre2) by by rewrite <- !app_assoc.
        apply Hno. apply elem_leaves. right. eauto. }
      intros a' s2 (HU2 & Hlv2 & n2 & t' & Hn2 & -> & Hnl & Htr & Hlt' & Hkp2). apply wp_bind. eapply wp_loadN; [exact Hn2|].
      assert (Hpost : del_post s p (Art a pre None (k1 ++ (b, tc) :: k2)) key (Some (aroot t'), Some (RL la), mut) s2).
      { exists (Some t'). cbn [fst snd]. split; [done|]. split; [done|]. split; [exists la, l; by rewrite Hlv2|]. split; [done|]. split; [|split; [by apply (Hkp2 key)|intros w Hw; left; by apply (Hkp2 key)]].
        intros k v0. rewrite Hlv, Hlt'. unfold outside. split.
        - intros Hx. right. exists b2, t2. split; [left|done].
        - intros [(? & [=])|(b' & t & Hx & Hy)]. apply elem_of_list_singleton in Hx. by injection Hx as -> ->. }
      destruct (Nat.eqb_spec (n_nch n2) 0) as [E0|_]; [|by apply wp_ret]. destruct (n_leaf n2); [by apply wp_ret|]. by destruct (Hnl E0).
    + eapply wp_use; [eapply (drop_kid s s1 p a pre lf k1 b tc k2 n idx); done|].
      intros a' s2 (HU2 & Hlv2 & Hkp2 & n2 & lf' & Hn2 & [Hnch _] & Hlf2 & Hmv & Htr). apply wp_bind. eapply wp_loadN; [exact Hn2|].
      assert (Hl2 : lv s2 !! la = Some l).
      { rewrite Hlv2; [done|done| | |].
        - rewrite kfp_app, app_assoc. intros Hx.
          assert (la ∉ fp tc); [|done]. eapply mid_notin; [exact Hndt|]. exact Hx.
        - intros ->. apply Hat. mem.
        - pose proof (rep_fpx _ _ _ Hr0) as Hb. by apply Hb. }
      assert (Hout' : forall k v0, outside lf' (k1 ++ k2) k v0 <-> outside lf (k1 ++ k2) k v0).
      { intros k v0. unfold outside. destruct lf as [[[la1 k3] v3]|], lf' as [[[la2 k4] v4]|]; try done.
        destruct Hmv as (-> & -> & _). split; (intros [(? & [= <- <- <-])|Hx]; [left; eauto|by right]). }
      assert (Hpost : lf <> None \/ k1 ++ k2 <> [] ->
         del_post s p (Art a pre lf (k1 ++ (b, tc) :: k2)) key (Some a', Some (RL la), mut) s2).
      { intros Hs. exists (Some (Art a' pre lf' (k1 ++ k2))). cbn [fst snd]. split; [done|]. split; [done|]. split; [by exists la, l|]. split; [by apply Htr|]. split; [|split; [by apply kept_drop|]].
        2:{ intros w Hw. left. apply thin_inv in Hw as [(El & Hl1 & ->)|(b' & t & Hbt' & Hw)]; [|eapply thin_kid; [|exact Hw]; apply elem_mid; by right].
            exfalso. pose proof (rep_low _ _ _ _ _ _ _ Hr0 Hn) as Hlow. apply Hnm. rewrite app_length in Hlow, Hl1. cbn in Hlow. split; [|split; [by rewrite app_length|by destruct lf as [[[? ?] ?]|], lf']].
            destruct (n_kind n); cbn in Hlow; try done; lia. }
        intros k v0. rewrite Hlv, <- Hout'. apply elem_leaves. }
      assert (Hfull : length (k1 ++ (b, tc) :: k2) <= 256). { pose proof (enc_len256 _ _ He) as Hx. unfold ents in Hx. by rewrite fmap_length in Hx. }
      rewrite app_length in Hfull. cbn in Hfull. rewrite u8_small in Hnch by (rewrite app_length; lia).
      rewrite Hnch. destruct (Nat.eqb_spec (length (k1 ++ k2)) 0) as [E0|E0].
      * apply nil_length_inv in E0. destruct lf' as [[[la2 k4] v4]|]; cbn in Hlf2.
        -- destruct Hlf2 as (-> & _). apply wp_ret. apply Hpost. left. by destruct lf.
        -- rewrite Hlf2. apply wp_ret. exists None. cbn [fst snd]. split; [done|]. split; [done|]. split; [by exists la, l|].
           intros k v0 Hx. apply leaves_split in Hx as [[(la1 & ->)|(b' & t & Hx & _)]|Hx]; [done| |by eapply Hot].
           rewrite E0 in Hx. by apply elem_of_nil in Hx.
      * apply wp_ret. apply Hpost. right. by intros E1; rewrite E1 in E0.
Qed.
End Delete.
