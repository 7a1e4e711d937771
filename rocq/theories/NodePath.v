(** An update by a tracking transaction records the channel of every node on the path of its key; SeekPrefix
    stops at a node on the path of the prefix. *)
From Verif Require Export NodeWatch.
From stdpp Require Import list.
Local Open Scope nat_scope.

Section Path.
Context {V : Type} `{GoZero V} (c : chan).
Notation TM := (M (st V)).
Notation pvt := (pv (fun _ _ => True)).
Notation nd s := (h_nodes (s_h s)).
Notation lv s := (h_leaves (s_h s)).
Lemma okp_r {A B} (m : TM A) (k : A -> TM B) s a s' P : m s = (Ok a, s') -> okp (k a) s' P -> okp (bind m k) s P.
Proof. intros E Hk. apply okp_bind. intros a' s1 E1. rewrite E in E1. injection E1 as <- <-. exact Hk. Qed.
Lemma okp_getT {B} (k : txn -> TM B) s P : okp (k (s_t s)) s P -> okp (bind getT k) s P.
Proof. by apply okp_r. Qed.
Lemma okp_loadN {B} a n (k : inode -> TM B) s P : nd s !! a = Some n -> okp (k n) s P -> okp (bind (loadN a) k) s P.
Proof. intros E. apply okp_r. unfold loadN, liftH, hloadN. rewrite E. by destruct s. Qed.
Lemma okp_loadL {B} a l (k : lnode V -> TM B) s P : lv s !! a = Some l -> okp (k l) s P -> okp (bind (loadL a) k) s P.
Proof. intros E. apply okp_r. unfold loadL, liftH, hloadL. rewrite E. by destruct s. Qed.
Lemma okp_byte {B} k i b (K : nat -> TM B) s P : k !! i = Some b -> okp (K b) s P -> okp (bind (byteAt k i) K) s P.
Proof. intros E. apply okp_r. unfold byteAt. by rewrite E. Qed.
Lemma okp_tail {A B} (m : TM A) (k : A -> TM B) s : okp m s (fun _ => rec c) -> (forall a, pvt (k a)) -> okp (bind m k) s (fun _ => rec c).
Proof. intros Hm Hk. apply okp_bind. eapply okp_mono; [exact Hm|]. intros a s' Hr. by apply okp_pvt. Qed.

Ltac pvx :=
  repeat match goal with
  | |- forall _, _ => intro
  | |- pv _ (bind getT _) => let s := fresh in intros s; apply pr_getT; revert s
  | |- pv _ (bind _ _) => let s := fresh in intros s; apply pv_bind; [|intros]
  | |- pr _ _ _ => apply pv_pr
  | |- pv _ (if ?b then _ else _) => destruct b
  | |- pv _ (match ?x with _ => _ end) => destruct x
  | |- pv _ (let '(_, _) := ?x in _) => destruct x
  | |- pv _ (ret _) => apply pv_ret
  | |- pv _ panic => apply pv_panic
  | |- pv _ (loadN _) => apply pv_loadN
  | |- pv _ (loadL _) => apply pv_loadL
  | |- pv _ getH => intros ?; apply R_refl
  | |- pv _ (storeN _ _) => apply pv_storeN
  | |- pv _ nextId => apply pv_nextId
  | |- pv _ (lift _) => apply pv_lift
  | |- pv _ (byteAt _ _) => apply pv_byteAt
  | |- pv _ (liftH (cloneN _ _)) => apply pv_liftH, hp_cloneN
  | |- pv _ (liftH (cloneL _ _)) => apply pv_liftH, hp_cloneL
  | |- pv _ (trackN _) => apply pv_trackN
  | |- pv _ (trackL _) => apply pv_trackL
  | |- pv _ (writeNode _ _) => apply pv_writeNode
  | |- pv _ (writeLeaf _ _) => apply pv_writeLeaf
  | |- pv _ allocLeaf => apply pv_allocLeaf
  | |- pv _ (allocNode _) => apply pv_allocNode
  | |- pv _ (makeLeaf _ _) => by apply pv_makeLeaf
  | |- pv _ (updN _ _) => apply pv_updN
  | |- pv _ (copyPartial _ _) => apply pv_copyPartial
  | |- pv _ (addChild _ _ _) => apply pv_addChild
  | |- pv _ (setKV _ _ _) => by apply pv_setKV
  | |- pv _ (setNodeLeaf _ _) => apply pv_setNodeLeaf
  | |- pv _ (setChild _ _ _) => apply pv_setChild
  | |- pv _ (removeChild _ _) => apply pv_removeChild
  | |- pv _ (storeL _ _) => let s := fresh in intros s; apply pr_storeL; by right; right
  | |- pv _ (putT _) => fail 1
  end.
Lemma path_insert key v x s : NT c x s -> stored key -> t_tsize (s_t s) <> 0%N -> forall fuel,
  (forall p t q, rep (s_h s) p t -> NoDup (fp t) -> noded p t x q -> q `prefix_of` key -> okp (recursiveInsert fuel (aroot t) key v (length p)) s (fun _ => rec c)) /\
  (forall p a pre lf kids b t q, rep (s_h s) p (Art a pre lf kids) -> NoDup (fp (Art a pre lf kids)) -> (b, t) ∈ kids -> noded (p ++ pre ++ [b]) t x q -> q `prefix_of` key ->
    okp (insertInner fuel a key v (length p)) s (fun _ => rec c)).
Proof.
  intros Hx Hsk Hts.
  induction fuel as [|fuel [IH1 IH2]]; (split; [intros p t q Hr Hnd Hno Hq|intros p a pre lf kids b t q Hr Hnd Hbt Hno Hq]); [done|done| |].
  - destruct t as [a pre lf kids]. apply noded_inv in Hno as [[-> ->]|(b & t & Hbt & Hno)]; [by apply root_insert|]. pose proof Hr as Hr0.
    apply rep_inv in Hr as (n & Hn & Hlt & He & Hpl & Hlf & Hk1 & Hk2 & Hk3 & Hst & Hkids).
    cbn [recursiveInsert aroot]. apply okp_getT. rewrite (proj2 (N.eqb_neq _ _)) by done. eapply okp_loadN; [exact Hn|].
    assert (Hne : kids <> []) by (intros ->; by apply elem_of_nil in Hbt).
    assert (Hin : okp (insertInner fuel a key v (length p)) s (fun _ => rec c)) by (by eapply IH2).
    destruct lf as [[[la1 k] v1]|]; [|cbn in Hlf; by rewrite Hlf]. destruct Hlf as (Hnl & _ & l' & Hl' & Hlk & _). rewrite Hnl. eapply okp_loadL; [exact Hl'|].
    rewrite (rep_isLeaf _ _ _ _ _ _ _ Hr0 Hn), bool_decide_false by done.
    destruct (leafMatches (l_key l') key) eqn:Em; [|done]. exfalso. apply leafMatches_true in Em. rewrite Hlk in Em. rewrite Em in *. clear Em.
    destruct (Hk3 _ _ _ eq_refl) as [_ Hk]. destruct (Hk Hne) as [Ek Hd].
    destruct (transitivity (noded_pos _ _ _ _ Hno) Hq) as [y Ex]. rewrite Ek, <- !app_assoc in Ex. apply app_inv_head, app_inv_head in Ex. injection Ex as <- _.
    apply Hd. apply elem_of_list_fmap. by exists (dollar, t).
  - pose proof Hr as Hr0. assert (Hne : kids <> []) by (intros ->; by apply elem_of_nil in Hbt).
    apply rep_inv in Hr as (n & Hn & Hlt & He & Hpl & Hlf & Hk1 & Hk2 & Hk3 & Hst & Hkids). destruct (Hk1 Hne) as (Hpn & Hpt & Hndol).
    destruct (transitivity (noded_pos _ _ _ _ Hno) Hq) as [y Ex].
    assert (Ek : key = p ++ pre ++ b :: y) by (rewrite Ex, <- !app_assoc; done). clear Ex.
    assert (Hlk : key !! (length p + length pre) = Some b) by (rewrite Ek, app_assoc, lookup_app_r by (rewrite app_length; lia); by rewrite app_length, Nat.sub_diag).
    pose proof Hbt as Hbt0. apply elem_of_list_split in Hbt as (k1 & k2 & ->). rewrite ents_app in He.
    destruct (enc_set _ _ _ _ _ He) as (idx & Hfc & _). cbn in Hfc.
    assert (Hrec : okp (recursiveInsert fuel (aroot t) key v (length p + length pre + 1)) s (fun _ => rec c)).
    { replace (length p + length pre + 1) with (length (p ++ pre ++ [b])) by (rewrite !app_length; cbn; lia). eapply (IH1 _ t); [by apply Hkids| |done|done].
      rewrite fp_eq, kfp_app, kfp_cons, NoDup_cons in Hnd. destruct Hnd as [_ Hnd]. rewrite !NoDup_app in Hnd. tauto. }
    cbn [insertInner]. eapply okp_loadN; [exact Hn|]. rewrite Hpn. destruct (Nat.ltb_spec 0 (length pre)).
    + eapply okp_r; [done|]. destruct (prefixMismatch_spec (s_h s) p a pre lf (k1 ++ (b, t) :: k2) n key) as (d & Ed & Hd); try done.
      { rewrite Ek. by eexists. }
      eapply okp_r; [unfold lift; rewrite Ed; done|]. destruct (Nat.leb_spec (length pre) d).
      * cbv zeta. rewrite (proj2 (Nat.ltb_lt _ _)) by (by eapply lookup_lt_Some).
        eapply (okp_r _ _ _ (Some (aroot t), idx) s).
        { unfold bind, byteAt. rewrite Hlk. unfold lift, ret. by rewrite Hfc. }
        cbn beta iota. apply okp_tail; [exact Hrec|]. pvx.
      * exfalso. destruct Hd as [[? _]|[_ Hd]]; [lia|]. rewrite Ek, drop_app in Hd.
        assert (lcp pre (pre ++ b :: y) = length pre); [|lia]. clear. induction pre as [|z pre IH]; [done|]. cbn [lcp app]. rewrite Nat.eqb_refl. cbn. by rewrite IH.
    + assert (pre = []) as -> by (destruct pre; [done|cbn in *; lia]). cbn [length] in *. rewrite Nat.add_0_r in Hlk, Hrec.
      eapply okp_byte; [exact Hlk|]. eapply okp_r; [unfold lift; rewrite Hfc; done|]. cbn beta iota. apply okp_tail; [exact Hrec|]. pvx.
Qed.

Lemma path_delete key x s : NT c x s -> stored key -> forall fuel p t q, rep (s_h s) p t -> noded p t x q -> q `prefix_of` key ->
  okp (recursiveDelete fuel (Some (aroot t)) key (length p)) s (fun r (s' : st V) => is_Some r.1.2 -> rec c s').
Proof.
  intros Hx Hsk. induction fuel as [|fuel IH]; intros p t q Hr Hno Hq; [done|]. destruct t as [a pre lf kids].
  apply noded_inv in Hno as [[-> ->]|(b & t & Hbt & Hno)]; [by apply root_delete|]. pose proof Hr as Hr0.
  apply rep_inv in Hr as (n & Hn & Hlt & He & Hpl & Hlf & Hk1 & Hk2 & Hk3 & Hst & Hkids).
  cbn [recursiveDelete aroot]. eapply okp_loadN; [exact Hn|]. rewrite (rep_isLeaf _ _ _ _ _ _ _ Hr0 Hn), leafMatches_nil, andb_false_r by done.
  assert (Hne : kids <> []) by (intros ->; by apply elem_of_nil in Hbt). rewrite bool_decide_false by done. eapply okp_r; [done|].
  destruct (Hk1 Hne) as (Hpn & Hpt & Hndol). destruct (transitivity (noded_pos _ _ _ _ Hno) Hq) as [y Ex].
  assert (Ek : key = p ++ pre ++ b :: y) by (rewrite Ex, <- !app_assoc; done). clear Ex.
  assert (Hlk : key !! (length p + length pre) = Some b) by (rewrite Ek, app_assoc, lookup_app_r by (rewrite app_length; lia); by rewrite app_length, Nat.sub_diag).
  eapply (okp_r _ _ _ None s).
  { destruct lf as [[[la1 k] v1]|]; [|cbn in Hlf; by rewrite Hlf]. destruct Hlf as (Hnl & _ & l' & Hl' & Hlk' & _). rewrite Hnl.
    unfold bind, loadL, liftH, hloadL. rewrite Hl'. cbn. destruct (leafMatches (l_key l') key) eqn:Em; [|by destruct s].
    exfalso. apply leafMatches_true in Em. rewrite Hlk' in Em. rewrite Em in *. clear Em.
    destruct (Hk3 _ _ _ eq_refl) as [_ Hk]. destruct (Hk Hne) as [Ek' Hd]. rewrite Ek in Ek'. apply app_inv_head, app_inv_head in Ek'. injection Ek' as -> _.
    apply Hd. apply elem_of_list_fmap. by exists (dollar, t). }
  eapply (okp_r _ _ _ false s).
  { destruct (Nat.ltb 0 (n_plen n)); [|done]. unfold bind, lift. rewrite Ek at 1. rewrite Hpn at 1. rewrite checkPrefix_match by done. by rewrite Hpn, Nat.eqb_refl. }
  cbv zeta. rewrite Hpn. eapply okp_byte; [exact Hlk|].
  pose proof Hbt as Hbt0. apply elem_of_list_split in Hbt as (k1 & k2 & ->). rewrite ents_app in He.
  destruct (enc_set _ _ _ _ _ He) as (idx & Hfc & _). cbn in Hfc. eapply okp_r; [unfold lift; rewrite Hfc; done|]. cbn beta iota. apply okp_bind.
  replace (length p + length pre + 1) with (length (p ++ pre ++ [b])) by (rewrite !app_length; cbn; lia).
  eapply okp_mono; [eapply IH; [by apply Hkids|done|done]|]. intros [[newChild val] mu] s1 Hs1. cbn [fst snd] in Hs1.
  destruct val as [val|].
  - eapply okp_mono; [apply okp_pvt; [pvx|apply Hs1; by eexists]|]. done.
  - apply okp_any. intros node s7. apply okp_any. intros n' s8. destruct (Nat.eqb _ _); [destruct (is_some (n_leaf n'))|]; apply okp_ret; cbn; by intros [? ?].
Qed.

(** ** SeekPrefix *)
Lemma prefixMismatch_full (h : heap V) p a pre lf kids n key d : rep h p (Art a pre lf kids) -> NoDup (fp (Art a pre lf kids)) ->
  h_nodes h !! a = Some n -> kids <> [] -> p `prefix_of` key -> prefixMismatch h a n key (length p) = Ok d -> length pre <= d -> (p ++ pre) `prefix_of` key.
Proof.
  intros Hr Hnd Hn Hne [rest ->] E Hd. pose proof Hr as Hr0. pose proof (fp_bound _ _ _ Hr Hnd) as Hfb.
  apply rep_inv in Hr as (n' & Hn' & Hlt & He & Hpl & Hlf & Hk1 & Hk2 & Hk3 & Hst & Hkids).
  assert (n' = n) as -> by congruence. destruct (Hk1 Hne) as (Hpn & Hpt & Hnd2). revert E. apply prefix_app_r || idtac.
  unfold prefixMismatch. rewrite Hpn, app_length.
  replace (length p + length rest - length p) with (length rest) by lia.
  set (L := lcp pre rest). set (m := maxPrefixLen `min` length pre) in *.
  assert (Hm : m `min` lcp (n_partial n) rest = m `min` L).
  { unfold L. rewrite <- !lcp_take_l', Hpt. unfold m. rewrite <- take_take, (firstn_all pre). done. }
  assert (Hmm : m <= maxPrefixLen) by (unfold m; lia).
  rewrite cmp_loop_0; [|lia|rewrite app_length; lia]. rewrite drop_app. cbn [obind].
  replace ((m `min` length rest) `min` lcp (n_partial n) rest) with ((m `min` length rest) `min` L) by lia.
  assert (Hfin : length pre <= L -> (p ++ pre) `prefix_of` (p ++ rest)).
  { intros HL. apply prefix_app, lcp_full. pose proof (lcp_le_l pre rest). unfold L in *. lia. }
  destruct (Nat.ltb_spec ((m `min` length rest) `min` L) (m `min` length rest)) as [Hlt1|Hge1].
  { intros [= <-]. apply Hfin. lia. }
  destruct (Nat.ltb_spec maxPrefixLen (length pre)) as [Hgt|Hle].
  2:{ intros [= <-]. apply Hfin. lia. }
  unfold walk_fuel. destruct (minimum_step h p pre lf kids a n (h_next h)) as (la & l & b & x & E & Hl & Hlk); try done.
  { rewrite (rep_isLeaf _ _ _ _ _ _ _ Hr0 Hn). by rewrite bool_decide_false. }
  { intros la k v El. apply (Hk3 _ _ _ El). done. }
  { intros b t Hbt. split; [by apply Hkids|]. pose proof (fp_kid_le a pre lf kids b t Hbt). lia. }
  rewrite E. cbn [obind]. rewrite Hl, Hlk. rewrite drop_app.
  set (y := b :: x) in *. assert (Hpre : L = length pre `min` lcp (pre ++ y) rest).
  { unfold L. rewrite <- lcp_take_l'. by rewrite take_app. }
  pose proof (lcp_le_l (pre ++ y) rest) as Hll. pose proof (lcp_le_r (pre ++ y) rest) as Hlr. rewrite app_length in Hll.
  rewrite cmp_loop_spec; [| |rewrite !app_length; lia|rewrite !app_length; lia|rewrite !app_length; unfold m in *; lia].
  2:{ rewrite !app_length. lia. }
  rewrite <- drop_drop, drop_app, lcp_drop by lia. intros [= <-]. apply Hfin. lia.
Qed.
Lemma seekLoop_path (h : heap V) q : is_bytes q -> forall t fuel p x, rep h p t -> NoDup (fp t) -> p `prefix_of` q ->
  seekLoop fuel h (aroot t) q (length p) = Ok x -> exists r, noded p t x r /\ r `prefix_of` q.
Proof.
  intros Hb t. induction t as [a pre lf kids IH] using art_ind'. intros fuel p x Hr Hnd Hpq E.
  destruct fuel as [|fuel]; [done|]. cbn [seekLoop aroot] in E. pose proof Hr as Hr0.
  assert (Hstay : Ok a = Ok x -> exists r, noded p (Art a pre lf kids) x r /\ r `prefix_of` q) by (intros [= <-]; exists p; split; [constructor|done]).
  apply rep_inv in Hr as (n & Hn & Hlt & He & Hpl & Hlf & Hk1 & Hk2 & Hk3 & Hst & Hkids).
  rewrite Hn, (rep_isLeaf _ _ _ _ _ _ _ Hr0 Hn) in E.
  assert (Hnone : forall c, c < 256 -> alook (ents kids) c = None -> findChild n c = Ok (None, 0)) by (intros; by eapply findChild_None).
  assert (Hq256 : forall i c, q !! i = Some c -> c < 256).
  { intros i c0 Hc. unfold is_bytes in Hb. rewrite Forall_forall in Hb. by eapply Hb, elem_of_list_lookup_2. }
  destruct (decide (kids = [])) as [->|Hne].
  { rewrite bool_decide_true in E by done. cbn [negb andb obind] in E. destruct (q !! length p) as [c0|] eqn:Ec; [|by apply Hstay]. rewrite (Hnone c0) in E; [by apply Hstay|by eapply Hq256|done]. }
  rewrite bool_decide_false in E by done. cbn [negb andb] in E. destruct (Hk1 Hne) as (Hpn & Hpt & Hnod).
  assert (Hgo : (p ++ pre) `prefix_of` q -> match q !! (length p + length pre) with
     | None => Ok a
     | Some c => let? '(child, _) := findChild n c in match child with None => Ok a | Some ca => seekLoop fuel h ca q (length p + length pre + 1) end
     end = Ok x -> exists r, noded p (Art a pre lf kids) x r /\ r `prefix_of` q).
  { intros Hpp E'. destruct (q !! (length p + length pre)) as [c0|] eqn:Ec; [|by apply Hstay]. destruct (alook (ents kids) c0) as [ca|] eqn:Eal.
    2:{ rewrite (Hnone c0) in E'; [by apply Hstay|by eapply Hq256|done]. }
    destruct (alook_split _ _ _ Eal) as (l1 & l2 & El). destruct (enc_set n l1 c0 ca l2) as (idx & Hfc & _); [by rewrite <- El|].
    rewrite Hfc in E'. cbn [obind] in E'. apply ents_split_cons in El as (k1 & t & k2 & -> & _ & _ & Ert).
    assert (Hct : (c0, t) ∈ k1 ++ (c0, t) :: k2) by (apply elem_of_app; right; left).
    destruct (IH c0 t Hct fuel (p ++ pre ++ [c0]) x (Hkids c0 t Hct)) as (r & Hr' & Hrq).
    { rewrite fp_eq in Hnd. apply NoDup_cons in Hnd as [_ Hnd]. apply NoDup_app in Hnd as (_ & _ & Hnd). rewrite kfp_app, kfp_cons in Hnd.
      apply NoDup_app in Hnd as (_ & _ & Hnd). by apply NoDup_app in Hnd as [? _]. }
    { destruct Hpp as [y ->]. rewrite <- app_assoc, lookup_app_r, lookup_app_r in Ec by lia. replace (length p + length pre - length p - length pre) with 0 in Ec by lia.
      destruct y as [|z y]; [done|]. cbn in Ec. injection Ec as ->. exists y. by rewrite <- !app_assoc. }
    { rewrite Ert, !app_length. cbn [length]. by rewrite Nat.add_assoc. }
    exists r. split; [by econstructor|done]. }
  destruct (Nat.ltb_spec 0 (n_plen n)) as [Hp0|Hp0]; cbn [obind] in E.
  - destruct (prefixMismatch_total h p a pre lf kids n q (length p) Hr0 Hnd Hn) as [m Em]. rewrite Em in E. cbn [obind] in E.
    destruct (Nat.ltb_spec m (n_plen n)); cbn [obind] in E; [by apply Hstay|]. rewrite Hpn in E, H0. apply Hgo; [|done]. by eapply prefixMismatch_full.
  - assert (pre = []) as -> by (destruct pre; [done|cbn in *; lia]). apply Hgo; [by rewrite app_nil_r|]. cbn [length]. by rewrite Nat.add_0_r.
Qed.

(** ** The channels do not matter *)
Lemma rep_er (h : heap V) p t : rep h p t -> rep (er_h h) p t.
Proof.
  revert p. induction t as [a pre lf kids IH] using art_ind'. intros p Hr.
  pose proof (fun n => rep_low _ _ _ _ _ _ n Hr) as Hlow. apply rep_inv in Hr as (n & Hn & Hlt & He & Hpl & Hlf & Hk1 & Hk2 & Hk3 & Hst & Hkids).
  assert (Hlr : forall o lf', leafrep h o lf' -> leafrep (er_h h) o lf').
  { intros o [[[la k] v]|]; [|done]. cbn. intros (-> & ? & l & Hl & Hk & Hv). split; [done|]. split; [done|]. exists (er_l l). by rewrite lookup_fmap, Hl. }
  apply (rep_node _ _ _ _ _ _ (er_n n)); [cbn; by rewrite lookup_fmap, Hn|done|eapply enc_same; [|exact He]; done|done|by apply Hlr|done|done|done| | |by apply (Hlow n)].
  - intros c0 Hc. destruct (Hst c0) as (b & Hb & Hok); [exact Hc|]. exists b. split; [done|].
    destruct Hok as (H1 & n1 & H2 & H3). split; [done|]. exists (er_n n1). cbn. rewrite lookup_fmap, H2. split; [done|].
    destruct (n_leaf n1) as [la|]; [|done]. destruct H3 as (H3 & l & H4 & H5). split; [done|]. exists (er_l l). by rewrite lookup_fmap, H4.
  - intros b t Hbt. by apply (IH b t Hbt), Hkids.
Qed.
End Path.
