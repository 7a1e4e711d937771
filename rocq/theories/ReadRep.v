(** Prefix iteration, the path iterator, Minimum and Maximum on represented trees. *)
From Verif Require Export Linear SpecRead.
From stdpp Require Export list sorting.
Local Open Scope nat_scope.

(** ** Order of keys *)
Lemma klt_app p x y : klt (p ++ x) (p ++ y) <-> klt x y.
Proof. induction p as [|a p IH]; cbn; [done|]. rewrite IH. split; [intros [?|[_ ?]]; [lia|done]|auto]. Qed.
Lemma klt_cons a b x y : a < b -> klt (a :: x) (b :: y).
Proof. intros. cbn. by left. Qed.
Lemma klt_prefix p b x : klt p (p ++ b :: x).
Proof. rewrite <- (app_nil_r p) at 1. by apply klt_app. Qed.
Lemma klt_prefix_length x y z : x `prefix_of` z -> y `prefix_of` z -> klt x y -> length x < length y.
Proof.
  revert x y. induction z as [|c z IH]; intros x y Hx Hy Hk.
  - apply prefix_nil_inv in Hx as ->. by apply prefix_nil_inv in Hy as ->.
  - destruct x as [|a x], y as [|b y]; cbn in *; [done|lia|done|].
    pose proof (prefix_cons_inv_1 _ _ _ _ Hx) as ->. pose proof (prefix_cons_inv_1 _ _ _ _ Hy) as ->.
    apply prefix_cons_inv_2 in Hx, Hy. destruct Hk as [?|[_ ?]]; [lia|]. apply -> Nat.succ_lt_mono. by apply IH.
Qed.

Lemma ss_app {A} (R : A -> A -> Prop) l1 l2 : StronglySorted R l1 -> StronglySorted R l2 -> (forall x y, x ∈ l1 -> y ∈ l2 -> R x y) ->
  StronglySorted R (l1 ++ l2).
Proof.
  induction l1 as [|a l1 IH]; intros H1 H2 H; cbn; [done|]. apply StronglySorted_inv in H1 as [H1 Ha]. constructor.
  - apply IH; [done..|]. intros x y Hx Hy. apply H; [by right|done].
  - apply Forall_app. split; [done|]. apply Forall_forall. intros y Hy. apply H; [left|done].
Qed.
Lemma ss_filter {A} (R : A -> A -> Prop) (P : A -> Prop) `{forall x, Decision (P x)} l : StronglySorted R l -> StronglySorted R (filter P l).
Proof.
  induction 1 as [|a l Hs IH Ha]; [constructor|]. rewrite filter_cons. destruct (decide (P a)); [|done]. constructor; [done|].
  rewrite Forall_forall in *. intros x Hx. apply elem_of_list_filter in Hx as [_ Hx]. auto.
Qed.
Lemma ss_mono {A} (R R' : A -> A -> Prop) l : (forall x y, x ∈ l -> y ∈ l -> R x y -> R' x y) -> StronglySorted R l -> StronglySorted R' l.
Proof.
  intros Hm. induction 1 as [|a l Hs IH Ha]; constructor.
  - apply IH. intros; apply Hm; [by right..|done].
  - rewrite Forall_forall in *. intros x Hx. apply Hm; [left|by right|auto].
Qed.
Lemma filter_none {A} (P : A -> Prop) `{forall x, Decision (P x)} l : (forall x, x ∈ l -> ~ P x) -> filter P l = [].
Proof.
  induction l as [|a l IH]; intros Hn; [done|]. rewrite filter_cons_False; [|by apply Hn; left]. apply IH. intros x Hx. apply Hn. by right.
Qed.

Section ReadRep.
Context {V : Type} `{GoZero V} {D : KeyDom}.
Notation art := (art V).
Notation kmap := (gmap (list nat) V).
Notation entry := (option ref).

(** ** Keys of a represented tree *)
Lemma rep_keys_NoDup (h : heap V) p t : rep h p t -> NoDup (leaves t).*1.
Proof.
  revert p. induction t as [a pre lf kids IH] using art_ind'. intros p Hr. pose proof Hr as Hr0.
  pose proof (rep_sorted _ _ _ _ _ _ Hr) as Hnd.
  apply rep_inv in Hr as (n & Hn & Hlt & He & Hpl & Hlf & Hk1 & Hk2 & Hk3 & Hst & Hkids).
  rewrite leaves_eq, fmap_app, NoDup_app. split; [destruct lf as [[[la k] v]|]; cbn; [apply NoDup_singleton|constructor]|].
  assert (Hkid : forall b t k v, (b, t) ∈ kids -> (k, v) ∈ leaves t -> (p ++ pre ++ [b]) `prefix_of` k) by (intros; by eapply rep_leaves_kid).
  split.
  - intros k Hk Hk'. destruct lf as [[[la k0] v0]|]; cbn in Hk; [|by apply elem_of_nil in Hk]. apply elem_of_list_singleton in Hk as ->.
    apply elem_of_list_fmap in Hk' as ([k v] & -> & Hin). cbn in *. apply elem_kleaves in Hin as (b & t & Hbt & Hin).
    destruct (Hk3 _ _ _ eq_refl) as [_ Hx]. destruct Hx as [-> Hd]; [by intros ->; apply elem_of_nil in Hbt|]. apply Hd.
    rewrite (prefix_inj_byte' p pre dollar b (p ++ pre ++ [dollar])); [|done|by eapply Hkid]. apply elem_of_list_fmap. by exists (b, t).
  - clear -Hkids IH Hnd Hkid. induction kids as [|[b t] kids IHk]; [constructor|]. rewrite kleaves_cons, fmap_app, NoDup_app. cbn in Hnd. apply NoDup_cons in Hnd as [Hb Hnd].
    split; [eapply (IH b t); [left|apply Hkids; left]|]. split.
    + intros k Hk Hk'. apply elem_of_list_fmap in Hk as ([k1 v1] & -> & H1). apply elem_of_list_fmap in Hk' as ([k2 v2] & E & H2). cbn in E. subst k2.
      cbn in H2. apply elem_kleaves in H2 as (b' & t' & Hbt' & H2). apply Hb.
      rewrite (prefix_inj_byte' p pre b b' k1); [|eapply Hkid; [left|done]|eapply Hkid; [by right|done]]. apply elem_of_list_fmap. by exists (b', t').
    + apply IHk; [| |done|]. { intros b' t' Hx. apply (IH b'). by right. } { intros b' t' Hx. apply Hkids. by right. } { intros b' t' k v Hx. apply Hkid. by right. }
Qed.

Definition klt' (x y : bytes * V) : Prop := klt (getKey x.1) (getKey y.1).

(** The traversal order is the order of the keys, if no key goes on with a byte below the terminator after another key. *)
Lemma snoc_prefix_inv (q : bytes) b k0 : (q ++ [b]) `prefix_of` k0 ++ [dollar] -> (b = dollar /\ k0 = q) \/ exists x, k0 = q ++ b :: x.
Proof.
  intros [x E]. destruct x as [|y x _] using rev_ind.
  - rewrite app_nil_r in E. apply app_inj_tail in E as [-> <-]. by left.
  - rewrite app_assoc in E. apply app_inj_tail in E as [-> _]. right. exists x. by rewrite <- app_assoc.
Qed.
Lemma rep_ordered (h : heap V) p t : rep h p t ->
  (forall k v k' v' c x, (k, v) ∈ leaves t -> (k', v') ∈ leaves t -> getKey k' = getKey k ++ c :: x -> dollar <= c) -> StronglySorted klt' (leaves t).
Proof.
  revert p. induction t as [a pre lf kids IH] using art_ind'. intros p Hr Hhi. pose proof Hr as Hr0.
  apply rep_inv in Hr as (n & Hn & Hlt & He & Hpl & Hlf & Hk1 & Hk2 & Hk3 & Hst & Hkids).
  assert (Hkid : forall b t k v, (b, t) ∈ kids -> (k, v) ∈ leaves t -> (dollar = b /\ getKey k = p ++ pre) \/ (exists x, getKey k = (p ++ pre) ++ b :: x)).
  { intros b t k v Hbt Hin. pose proof (rep_leaves_kid _ _ _ _ _ _ _ _ _ _ Hr0 Hbt Hin) as Hp.
    destruct (rep_leaves _ _ _ _ _ (Hkids _ _ Hbt) Hin) as [_ (k0 & -> & _)]. rewrite getKey_snoc. rewrite app_assoc in Hp.
    apply snoc_prefix_inv in Hp as [[-> ->]|[x Ex]]; [by left|]. right. eauto. }
  rewrite leaves_eq. apply ss_app.
  - destruct lf as [[[la k] v]|]; cbn; repeat constructor.
  - pose proof (enc_sorted _ _ He) as Hss.
    assert (Hk' : forall b t, (b, t) ∈ kids -> StronglySorted klt' (leaves t)).
    { intros b t Hbt. eapply (IH b t Hbt); [by apply Hkids|]. intros k v k' v' c x Hin Hin'. eapply Hhi; apply elem_leaves; eauto. }
    assert (Hlow : forall b t k v b' t' k' v', (b, t) ∈ kids -> (k, v) ∈ leaves t -> (b', t') ∈ kids -> (k', v') ∈ leaves t' ->
       getKey k' = p ++ pre -> forall x, getKey k = (p ++ pre) ++ b :: x -> dollar <= b).
    { intros b t k v b' t' k' v' Hb Hin Hb' Hin' E x E'. rewrite <- E in E'. eapply Hhi; [| |exact E']; apply elem_leaves; eauto. }
    clear -Hss Hk' Hkid Hlow. induction kids as [|[b t] kids IHk]; [constructor|]. rewrite kleaves_cons. apply ss_app.
    + eapply Hk'. left.
    + apply IHk; [intros b' t' k v Hx; apply Hkid; by right|by destruct Hss|intros b' t' Hx; eapply (Hk' b'); by right|].
      intros b1 t1 k1 v1 b2 t2 k2 v2 H1 H2 H3. apply (Hlow b1 t1 k1 v1 b2 t2 k2 v2); [by right|done|by right].
    + intros [k1 v1] [k2 v2] H1 H2. apply elem_kleaves in H2 as (b' & t' & Hbt' & H2).
      assert (Hbb : b < b').
      { destruct Hss as [Hf _]. unfold above in Hf. rewrite Forall_forall in Hf. apply (Hf (b', aroot t')). apply elem_ents. eauto. }
      unfold klt'. cbn [fst]. destruct (Hkid b' t' k2 v2 ltac:(by right) H2) as [[<- E2]|(x' & ->)].
      * destruct (Hkid b t k1 v1 ltac:(left) H1) as [[<- _]|[x E1]]; [lia|].
        pose proof (Hlow b t k1 v1 dollar t' k2 v2 ltac:(left) H1 ltac:(by right) H2 E2 x E1). lia.
      * destruct (Hkid b t k1 v1 ltac:(left) H1) as [[_ ->]|(x & ->)]; [apply klt_prefix|apply klt_app; by apply klt_cons].
  - intros [k1 v1] [k2 v2] H1 H2. destruct lf as [[[la k] v]|]; cbn in H1; [|by apply elem_of_nil in H1]. apply elem_of_list_singleton in H1 as [= -> ->].
    apply elem_kleaves in H2 as (b & t & Hbt & H2). destruct (Hk3 _ _ _ eq_refl) as [_ Hx]. destruct Hx as [-> Hd]; [by intros ->; apply elem_of_nil in Hbt|].
    unfold klt'. cbn [fst]. rewrite app_assoc, getKey_snoc. destruct (Hkid b t k2 v2 Hbt H2) as [[<- _]|(x & ->)]; [|apply klt_prefix].
    exfalso. apply Hd. apply elem_of_list_fmap. by exists (dollar, t).
Qed.

(** ** Iterator.Next *)
Definition ents_of (ts : list art) : list entry := (fun t => Some (RN (aroot t))) <$> ts.
Definition sfp (ts : list art) : list addr := concat (List.map fp ts).
Definition sl (ts : list art) : list (bytes * V) := concat (List.map leaves ts).
Definition stk (h : heap V) (ts : list art) : Prop := Forall (fun t => exists p, rep h p t) ts.
Lemma sl_app ts ts' : sl (ts ++ ts') = sl ts ++ sl ts'.
Proof. unfold sl. by rewrite List.map_app, concat_app. Qed.
Lemma sfp_app ts ts' : sfp (ts ++ ts') = sfp ts ++ sfp ts'.
Proof. unfold sfp. by rewrite List.map_app, concat_app. Qed.
Lemma kids_sl (kids : list (nat * art)) : sl kids.*2 = kleaves kids.
Proof. induction kids as [|[b t] kids IH]; [done|]. cbn. unfold sl in *. cbn. by rewrite IH. Qed.
Lemma kids_sfp (kids : list (nat * art)) : sfp kids.*2 = kfp kids.
Proof. induction kids as [|[b t] kids IH]; [done|]. cbn. unfold sfp in *. cbn. by rewrite IH. Qed.
Lemma kids_ents (kids : list (nat * art)) n : enc n (ents kids) -> RNo <$> iterChildren n = ents_of kids.*2.
Proof.
  intros He. rewrite (enc_iterChildren _ _ He). unfold ents, ents_of, RNo. clear He. induction kids as [|[b t] kids IH]; [done|]. cbn in *. by rewrite IH.
Qed.
Lemma kids_stk (h : heap V) q (kids : list (nat * art)) : (forall b t, (b, t) ∈ kids -> rep h (q b) t) -> stk h kids.*2.
Proof. intros Hk. apply Forall_fmap, Forall_forall. intros [b t] Hx. exists (q b). by apply Hk. Qed.

Notation match_p path := (fun kv : bytes * V => hasPrefix kv.1 path = true).
Lemma nextLoop_spec (h : heap V) path fuel : forall ts, stk h ts -> length (sfp ts) < fuel ->
  match filter (match_p path) (sl ts) with
  | [] => nextLoop fuel h path (ents_of ts) = Ok (None, [])
  | kv :: L => exists ts', nextLoop fuel h path (ents_of ts) = Ok (Some (getKey kv.1, kv.2), ents_of ts') /\ stk h ts' /\
                 length (sfp ts') <= length (sfp ts) /\ filter (match_p path) (sl ts') = L
  end.
Proof.
  induction fuel as [|fuel IH]; intros ts Hs Hf; [lia|]. destruct ts as [|[a pre lf kids] ts]; [done|].
  inversion Hs as [|? ? [p Hr] Hs']; subst. apply rep_inv in Hr as (n & Hn & Hlt & He & Hpl & Hlf & Hk1 & Hk2 & Hk3 & Hst & Hkids).
  cbn [nextLoop ents_of fmap list_fmap aroot]. rewrite Hn. fold (ents_of ts). rewrite (kids_ents kids n He).
  replace (ents_of kids.*2 ++ ents_of ts) with (ents_of (kids.*2 ++ ts)) by (unfold ents_of; by rewrite fmap_app).
  assert (Hs2 : stk h (kids.*2 ++ ts)) by (apply Forall_app; split; [by eapply (kids_stk h (fun b => p ++ pre ++ [b]))|done]).
  assert (Hl2 : length (sfp (Art a pre lf kids :: ts)) = S (length (lfa lf) + length (sfp (kids.*2 ++ ts)))).
  { unfold sfp at 1. cbn [List.map concat]. rewrite fp_eq, sfp_app, kids_sfp. cbn. rewrite !app_length. unfold sfp. lia. }
  assert (Esl : sl (Art a pre lf kids :: ts) = lfl lf ++ sl (kids.*2 ++ ts)).
  { unfold sl at 1. cbn [List.map concat]. by rewrite leaves_eq, sl_app, kids_sl, <- app_assoc. }
  rewrite Esl, filter_app. specialize (IH (kids.*2 ++ ts) Hs2 ltac:(lia)).
  assert (Hskip : filter (match_p path) (lfl lf) = [] -> match filter (match_p path) (sl (kids.*2 ++ ts)) with
    | [] => nextLoop fuel h path (ents_of (kids.*2 ++ ts)) = Ok (None, [])
    | kv :: L => exists ts', nextLoop fuel h path (ents_of (kids.*2 ++ ts)) = Ok (Some (getKey kv.1, kv.2), ents_of ts') /\ stk h ts' /\
                 length (sfp ts') <= length (sfp (Art a pre lf kids :: ts)) /\ filter (match_p path) (sl ts') = L
    end).
  { intros _. destruct (filter (match_p path) (sl (kids.*2 ++ ts))) as [|kv L]; [done|]. destruct IH as (ts' & E & ? & ? & ?). exists ts'. split_and!; [done..|lia|done]. }
  destruct lf as [[[la k] v]|]; cbn [lfl] in *.
  - destruct Hlf as (-> & _ & l & -> & -> & ->). rewrite filter_cons, filter_nil in *. cbn [fst] in *. destruct (hasPrefix k path) eqn:Ep.
    + rewrite decide_True by done. cbn [app]. exists (kids.*2 ++ ts). cbn [fst snd]. split_and!; [done..|lia|done].
    + rewrite decide_False in * by done. by apply Hskip.
  - cbn in Hlf. rewrite Hlf. rewrite filter_nil in *. by apply Hskip.
Qed.
Definition unterm (l : list (bytes * V)) : list (bytes * V) := (fun kv => (getKey kv.1, kv.2)) <$> l.
Lemma iterNext_yields (h : heap V) path nd ts : stk h ts -> length (sfp ts) <= h_next h ->
  yields (iterNext h) (mkIt path nd (Some (ents_of ts))) (unterm (filter (match_p path) (sl ts))).
Proof.
  remember (filter (match_p path) (sl ts)) as L eqn:EL. revert ts EL. induction L as [|kv L IH]; intros ts EL Hs Hl.
  - pose proof (nextLoop_spec h path (walk_fuel h) ts Hs) as Hn. rewrite <- EL in Hn. eapply yields_nil. unfold iterNext. cbn [it_path it_stack stackOf default id]. 
    rewrite Hn; [cbn; done|]. unfold walk_fuel. lia.
  - pose proof (nextLoop_spec h path (walk_fuel h) ts Hs) as Hn. rewrite <- EL in Hn. destruct Hn as (ts' & E & Hs' & Hl' & EL'); [unfold walk_fuel; lia|].
    cbn. eapply yields_cons; [|apply (IH ts'); [done..|lia]]. unfold iterNext. cbn [it_path it_stack stackOf default id]. rewrite E. done.
Qed.

(** ** SeekPrefix *)
Lemma cmp_loop_total fuel idx maxCmp partial key depth : maxCmp <= length partial -> maxCmp <= length key - depth ->
  exists d, cmp_loop fuel idx maxCmp partial key depth = Ok d.
Proof.
  revert idx. induction fuel as [|fuel IH]; intros idx H1 H2; cbn [cmp_loop]; [eauto|]. destruct (Nat.ltb_spec idx maxCmp); [|eauto].
  destruct (lookup_lt_is_Some_2 partial idx ltac:(lia)) as [x ->]. destruct (lookup_lt_is_Some_2 key (depth + idx) ltac:(lia)) as [y ->].
  destruct (Nat.eqb x y); [|eauto]. by apply IH.
Qed.
Lemma prefixMismatch_total (h : heap V) p a pre lf kids n key depth : rep h p (Art a pre lf kids) -> NoDup (fp (Art a pre lf kids)) ->
  h_nodes h !! a = Some n -> exists d, prefixMismatch h a n key depth = Ok d.
Proof.
  intros Hr Hnd Hn. unfold prefixMismatch. pose proof Hr as Hr0.
  apply rep_inv in Hr as (n' & Hn' & Hlt & He & Hpl & Hlf & Hk1 & Hk2 & Hk3 & Hst & Hkids). assert (n' = n) as -> by congruence.
  destruct (cmp_loop_total (maxPrefixLen `min` n_plen n `min` (length key - depth)) 0 (maxPrefixLen `min` n_plen n `min` (length key - depth)) (n_partial n) key depth) as [d ->]; [lia..|].
  cbn [obind]. destruct (Nat.ltb _ _); [eauto|]. destruct (Nat.ltb _ _); [|eauto].
  destruct (minimum_node (walk_fuel h) h p _ Hr0) as (la & l & k & v & L & E & H1 & _); [by eapply fp_walk|]. cbn [aroot] in E. rewrite E. cbn [obind]. rewrite H1.
  apply cmp_loop_total; rewrite ?drop_length; lia.
Qed.
Lemma seekLoop_spec (h : heap V) q : is_bytes q -> forall t fuel p, rep h p t -> NoDup (fp t) -> length q - length p < fuel ->
  exists t' p', seekLoop fuel h (aroot t) q (length p) = Ok (aroot t') /\ rep h p' t' /\ length (fp t') <= length (fp t) /\
    (last q <> Some dollar -> filter (match_p q) (leaves t') = filter (match_p q) (leaves t)).
Proof.
  intros Hb t. induction t as [a pre lf kids IH] using art_ind'. intros fuel p Hr Hnd Hf.
  destruct fuel as [|fuel]; [lia|]. cbn [seekLoop aroot]. pose proof Hr as Hr0.
  assert (Hstay : exists t' p', Ok a = Ok (aroot t') /\ rep h p' t' /\ length (fp t') <= length (fp (Art a pre lf kids)) /\
    (last q <> Some dollar -> filter (match_p q) (leaves t') = filter (match_p q) (leaves (Art a pre lf kids)))) by (by exists (Art a pre lf kids), p).
  apply rep_inv in Hr as (n & Hn & Hlt & He & Hpl & Hlf & Hk1 & Hk2 & Hk3 & Hst & Hkids).
  rewrite Hn, (rep_isLeaf _ _ _ _ _ _ _ Hr0 Hn).
  assert (Hnone : forall c, c < 256 -> alook (ents kids) c = None -> findChild n c = Ok (None, 0)) by (intros; by eapply findChild_None).
  assert (Hq256 : forall i c, q !! i = Some c -> c < 256).
  { intros i c Hc. unfold is_bytes in Hb. rewrite Forall_forall in Hb. by eapply Hb, elem_of_list_lookup_2. }
  destruct (decide (kids = [])) as [->|Hne].
  { rewrite bool_decide_true by done. cbn [negb andb obind]. destruct (q !! length p) as [c|] eqn:Ec; [|done]. rewrite (Hnone c); [done|by eapply Hq256|done]. }
  rewrite bool_decide_false by done. cbn [negb andb]. destruct (Hk1 Hne) as (Hpn & Hpt & Hnod).
  assert (Hgo : exists t' p', match q !! (length p + length pre) with
     | None => Ok a
     | Some c => let? '(child, _) := findChild n c in match child with None => Ok a | Some ca => seekLoop fuel h ca q (length p + length pre + 1) end
     end = Ok (aroot t') /\ rep h p' t' /\ length (fp t') <= length (fp (Art a pre lf kids)) /\
    (last q <> Some dollar -> filter (match_p q) (leaves t') = filter (match_p q) (leaves (Art a pre lf kids)))).
  { destruct (q !! (length p + length pre)) as [c|] eqn:Ec; [|done]. destruct (alook (ents kids) c) as [ca|] eqn:Eal.
    2:{ rewrite (Hnone c); [done|by eapply Hq256|done]. }
    destruct (alook_split _ _ _ Eal) as (l1 & l2 & El). destruct (enc_set n l1 c ca l2) as (idx & Hfc & _); [by rewrite <- El|].
    rewrite Hfc. cbn [obind]. apply ents_split_cons in El as (k1 & t & k2 & -> & _ & _ & Ert).
    assert (Hct : (c, t) ∈ k1 ++ (c, t) :: k2) by (apply elem_of_app; right; left). apply lookup_lt_Some in Ec as Hlc.
    destruct (IH c t Hct fuel (p ++ pre ++ [c]) (Hkids c t Hct)) as (t' & p' & E & Hr' & Hl' & Hfil).
    { rewrite fp_eq in Hnd. apply NoDup_cons in Hnd as [_ Hnd]. apply NoDup_app in Hnd as (_ & _ & Hnd). rewrite kfp_app, kfp_cons in Hnd.
      apply NoDup_app in Hnd as (_ & _ & Hnd). by apply NoDup_app in Hnd as [? _]. }
    { rewrite !app_length. cbn. lia. }
    exists t', p'. rewrite !app_length in E. cbn in E. rewrite Nat.add_assoc, Ert in E. split; [done|]. split; [done|].
    split; [pose proof (fp_kid_le a pre lf (k1 ++ (c, t) :: k2) c t Hct); lia|]. intros Hlast. rewrite (Hfil Hlast), leaves_eq, kleaves_app, kleaves_cons, !filter_app.
    assert (Hkey : forall k, hasPrefix k q = true -> k !! (length p + length pre) = Some c).
    { intros k Hk. rewrite hasPrefix_has, has_prefix_true in Hk. destruct Hk as [x ->]. by rewrite lookup_app_l. }
    assert (Hother : forall b t0 k v, (b, t0) ∈ k1 ++ (c, t) :: k2 -> (k, v) ∈ leaves t0 -> hasPrefix k q = true -> b = c).
    { intros b t0 k v Hbt Hin Hk. apply Hkey in Hk. destruct (rep_leaves_kid _ _ _ _ _ _ _ _ _ _ Hr0 Hbt Hin) as [x ->].
      rewrite <- !app_assoc in Hk. rewrite lookup_app_r in Hk by lia. rewrite lookup_app_r in Hk by lia.
      replace (length p + length pre - length p - length pre) with 0 in Hk by lia. cbn in Hk. congruence. }
    pose proof (rep_sorted _ _ _ _ _ _ Hr0) as Hks. rewrite fmap_app in Hks. apply NoDup_app in Hks as (_ & Hk12 & Hks). cbn in Hks. apply NoDup_cons in Hks as [Hk2c _].
    rewrite (filter_none _ (lfl lf)), (filter_none _ (kleaves k1)), (filter_none _ (kleaves k2)); [by rewrite app_nil_r|..].
    - intros [k v] Hin Hk. apply elem_kleaves in Hin as (b & t0 & Hbt & Hin). cbn in Hk.
      assert (b = c) as ->. { eapply Hother; [|done..]. apply elem_of_app. right. by right. } apply Hk2c. apply elem_of_list_fmap. by exists (c, t0).
    - intros [k v] Hin Hk. apply elem_kleaves in Hin as (b & t0 & Hbt & Hin). cbn in Hk.
      assert (b = c) as ->. { eapply Hother; [|done..]. apply elem_of_app. by left. } apply (Hk12 c); [apply elem_of_list_fmap; by exists (c, t0)|cbn; left].
    - intros [k v] Hin Hk. destruct lf as [[[la k0] v0]|]; cbn in Hin; [|by apply elem_of_nil in Hin]. apply elem_of_list_singleton in Hin as [= -> ->]. cbn in Hk.
      destruct (Hk3 _ _ _ eq_refl) as [_ Hx]. destruct (Hx Hne) as [-> _]. rewrite hasPrefix_has, has_prefix_true in Hk.
      destruct Hk as [x Ex]. assert (x = []) as ->.
      { apply (f_equal length) in Ex. rewrite !app_length in Ex. cbn in Ex. destruct x; [done|]. cbn in Ex. lia. }
      rewrite app_nil_r in Ex. subst q. apply Hlast. rewrite app_assoc. by rewrite last_snoc. }
  destruct (Nat.ltb_spec 0 (n_plen n)) as [Hp0|Hp0]; cbn [obind].
  - destruct (prefixMismatch_total h p a pre lf kids n q (length p) Hr0 Hnd Hn) as [m Em]. rewrite Em. cbn [obind]. destruct (Nat.ltb m (n_plen n)); cbn [obind]; [done|]. by rewrite Hpn.
  - replace (length p) with (length p + length pre) by lia. done.
Qed.

(** ** PathIterator.Next *)
Inductive item := SN (t : art) | SL (la : addr) (k : bytes) (v : V).
Definition ient (i : item) : entry := match i with SN t => Some (RN (aroot t)) | SL la _ _ => Some (RL la) end.
Definition ifp (i : item) : list addr := match i with SN t => fp t | SL la _ _ => [la] end.
Definition il (i : item) : list (bytes * V) := match i with SN t => leaves t | SL _ k v => [(k, v)] end.
Definition iok (h : heap V) (i : item) : Prop :=
  match i with SN t => exists p, rep h p t | SL la k v => exists l, h_leaves h !! la = Some l /\ l_key l = k /\ l_val l = v end.
Definition isl (is_ : list item) : list (bytes * V) := concat (List.map il is_).
Definition isfp (is_ : list item) : list addr := concat (List.map ifp is_).
Definition lfi (lf : option (addr * bytes * V)) : list item := match lf with Some (la, k, v) => [SL la k v] | None => [] end.
Notation match_q path := (fun kv : bytes * V => prefixContainsMatch kv.1 path = true).
Lemma pathLoop_spec (h : heap V) path fuel : forall is_, Forall (iok h) is_ -> length (isfp is_) < fuel ->
  match filter (match_q path) (isl is_) with
  | [] => pathNextLoop fuel h path (ient <$> is_) = Ok (None, [])
  | kv :: L => exists is', pathNextLoop fuel h path (ient <$> is_) = Ok (Some (getKey kv.1, kv.2), ient <$> is') /\ Forall (iok h) is' /\
                 length (isfp is') <= length (isfp is_) /\ filter (match_q path) (isl is') = L
  end.
Proof.
  induction fuel as [|fuel IH]; intros is_ Hs Hf; [lia|]. destruct is_ as [|i is_]; [done|]. inversion Hs as [|? ? Hi Hs']; subst.
  destruct i as [[a pre lf kids]|la k v].
  - destruct Hi as [p Hr]. apply rep_inv in Hr as (n & Hn & Hlt & He & Hpl & Hlf & Hk1 & Hk2 & Hk3 & Hst & Hkids).
    cbn [pathNextLoop fmap list_fmap ient aroot]. rewrite Hn. rewrite (enc_iterChildren _ _ He).
    replace ((fun c : addr => Some (RN c)) <$> omap id (Some <$> (ents kids).*2)) with (ient <$> (SN <$> kids.*2)).
    2:{ clear. induction kids as [|[b t] kids IH]; [done|]. cbn. by rewrite IH. }
    replace (match n_leaf n with Some la => [Some (RL la)] | None => [] end) with (ient <$> lfi lf).
    2:{ destruct lf as [[[la k] v]|]; cbn in Hlf; [by destruct Hlf as [-> _]|by rewrite Hlf]. }
    rewrite <- !(fmap_app ient).
    assert (E1 : isl (SN (Art a pre lf kids) :: is_) = isl (lfi lf ++ (SN <$> kids.*2) ++ is_)).
    { unfold isl. rewrite !List.map_app, !concat_app. cbn [List.map concat il]. rewrite leaves_eq, <- app_assoc. f_equal; [by destruct lf as [[[? ?] ?]|]|]. f_equal.
      clear. induction kids as [|[b t] kids IH]; [done|]. cbn. by rewrite <- IH. }
    assert (E2 : length (isfp (SN (Art a pre lf kids) :: is_)) = S (length (isfp (lfi lf ++ (SN <$> kids.*2) ++ is_)))).
    { unfold isfp. rewrite !List.map_app, !concat_app. cbn [List.map concat ifp]. rewrite fp_eq. cbn [app length]. rewrite !app_length. f_equal.
      assert (length (lfa lf) = length (concat (List.map ifp (lfi lf)))) as -> by (by destruct lf as [[[? ?] ?]|]).
      assert (kfp kids = concat (List.map ifp (SN <$> kids.*2))) as ->; [|lia]. clear. induction kids as [|[b t] kids IH]; [done|]. cbn. by rewrite <- IH. }
    rewrite E1. assert (Hs2 : Forall (iok h) (lfi lf ++ (SN <$> kids.*2) ++ is_)).
    { apply Forall_app. split; [|apply Forall_app; split; [|done]].
      - destruct lf as [[[la k] v]|]; cbn; [|constructor]. destruct Hlf as (_ & _ & Hl). repeat constructor. done.
      - apply Forall_fmap, Forall_fmap, Forall_forall. intros [b t] Hbt. exists (p ++ pre ++ [b]). by apply Hkids. }
    specialize (IH _ Hs2 ltac:(lia)). destruct (filter _ _) as [|kv L]; [done|]. destruct IH as (is' & ? & ? & ? & ?). exists is'. split_and!; [done..|lia|done].
  - destruct Hi as (l & Hl & <- & <-). cbn [pathNextLoop fmap list_fmap ient]. rewrite Hl.
    replace (isl (SL la (l_key l) (l_val l) :: is_)) with ((l_key l, l_val l) :: isl is_) by done. rewrite filter_cons. cbn [fst].
    assert (E2 : length (isfp (SL la (l_key l) (l_val l) :: is_)) = S (length (isfp is_))) by done.
    destruct (prefixContainsMatch (l_key l) path) eqn:Em.
    + rewrite decide_True by done. exists is_. cbn [fst snd]. split_and!; [done..|lia|done].
    + rewrite decide_False by done. specialize (IH _ Hs' ltac:(lia)). destruct (filter _ _) as [|kv L]; [done|]. destruct IH as (is' & ? & ? & ? & ?). exists is'. split_and!; [done..|lia|done].
Qed.
Lemma pathNext_yields (h : heap V) path is_ : Forall (iok h) is_ -> length (isfp is_) <= h_next h ->
  yields (pathNext h) (mkPI path (ient <$> is_)) (unterm (filter (match_q path) (isl is_))).
Proof.
  remember (filter (match_q path) (isl is_)) as L eqn:EL. revert is_ EL. induction L as [|kv L IH]; intros is_ EL Hs Hl.
  - pose proof (pathLoop_spec h path (walk_fuel h) is_ Hs) as Hn. rewrite <- EL in Hn. eapply yields_nil. unfold pathNext. cbn [pi_path pi_stack]. 
    rewrite Hn; [cbn; done|]. unfold walk_fuel. lia.
  - pose proof (pathLoop_spec h path (walk_fuel h) is_ Hs) as Hn. rewrite <- EL in Hn. destruct Hn as (is' & E & Hs' & Hl' & EL'); [unfold walk_fuel; lia|].
    cbn. eapply yields_cons; [|apply (IH is'); [done..|lia]]. unfold pathNext. cbn [pi_path pi_stack]. rewrite E. done.
Qed.
End ReadRep.
