(** An update of a key by a tracking transaction records the channel of the leaf of that key. *)
From Verif Require Export Cells KeepCh Prims.
From stdpp Require Import list.
Local Open Scope nat_scope.

Section Fires.
Context {V : Type} `{GoZero V} (c : chan).
Notation TM := (M (st V)).
Notation pvt := (pv (fun _ _ => True)).
Notation nd s := (h_nodes (s_h s)).
Notation lv s := (h_leaves (s_h s)).

(** [cp m s]: running m from s records c *)
Definition cp {A} (m : TM A) (s : st V) : Prop := c ∈ t_chs (s_t (m s).2).
Lemma cp_l {A B} (m : TM A) (k : A -> TM B) s : cp m s -> (forall a, pvt (k a)) -> cp (bind m k) s.
Proof.
  unfold cp, bind. intros Hm Hk. destruct (m s) as [[a| |] s'] eqn:E; [|done..]. cbn in Hm. destruct (Hk a s') as [_ _ _ (ex & -> & _)].
  apply elem_of_app. by left.
Qed.
Lemma cp_r {A B} (m : TM A) (k : A -> TM B) s a s' : m s = (Ok a, s') -> cp (k a) s' -> cp (bind m k) s.
Proof. unfold cp, bind. by intros ->. Qed.
Lemma cp_getT {B} (k : txn -> TM B) s : cp (k (s_t s)) s -> cp (bind getT k) s.
Proof. done. Qed.
Lemma cp_loadN {B} a n (k : inode -> TM B) s : nd s !! a = Some n -> cp (k n) s -> cp (bind (loadN a) k) s.
Proof. intros E. apply cp_r. unfold loadN, liftH, hloadN. rewrite E. by destruct s. Qed.
Lemma cp_loadL {B} a l (k : lnode V -> TM B) s : lv s !! a = Some l -> cp (k l) s -> cp (bind (loadL a) k) s.
Proof. intros E. apply cp_r. unfold loadL, liftH, hloadL. rewrite E. by destruct s. Qed.
Lemma cp_lift {A B} (o : outcome A) a (k : A -> TM B) s : o = Ok a -> cp (k a) s -> cp (bind (lift o) k) s.
Proof. intros ->. by apply cp_r. Qed.
Lemma cp_byteAt {B} k i b (K : nat -> TM B) s : k !! i = Some b -> cp (K b) s -> cp (bind (byteAt k i) K) s.
Proof. intros E. apply cp_r. unfold byteAt. by rewrite E. Qed.
Lemma cp_ret {A B} (a : A) (k : A -> TM B) s : cp (k a) s -> cp (bind (ret a) k) s.
Proof. by apply cp_r. Qed.
Lemma cp_assoc {A B C} (m : TM A) (k : A -> TM B) (k' : B -> TM C) s : cp (bind m (fun a => bind (k a) k')) s -> cp (bind (bind m k) k') s.
Proof. unfold cp, bind. by destruct (m s) as [[]]. Qed.

Lemma trackN_leaves a s : t_track (s_t s) = true -> is_Some (nd s !! a) -> exists s', trackN (V:=V) a s = (Ok tt, s') /\ lv s' = lv s /\ t_track (s_t s') = true /\
   (exists n n', nd s !! a = Some n /\ nd s' !! a = Some n' /\ n_leaf n' = n_leaf n).
Proof.
  intros Ht [n Hn]. unfold trackN, bind, getT. cbn. rewrite Ht, Hn, bool_decide_eq_true_2 by eauto. cbn. unfold liftH, getMutateChN, bind, hloadN. cbn. rewrite Hn.
  destruct (n_ch n); cbn; unfold addTracked, bind, getT, putT, setMutateChN, hloadN, bind; cbn; rewrite ?Hn, ?lookup_insert; cbn;
  (eexists; split; [done|]; cbn; split; [done|]; split; [done|]; rewrite lookup_insert; eauto 6).
Qed.
Lemma cp_trackL la l s : t_track (s_t s) = true -> lv s !! la = Some l -> l_ch l = Some c -> cp (trackL la) s.
Proof.
  intros Ht Hl Hc. unfold cp, trackL, bind, getT. cbn. rewrite Ht, Hl, bool_decide_eq_true_2 by eauto. cbn. unfold liftH, getMutateChL, bind, hloadL. cbn. rewrite Hl, Hc. cbn.
  unfold addTracked, bind, getT, putT, setMutateChL, hloadL, bind; cbn. rewrite Hl. cbn. apply elem_of_app. right. by apply elem_of_list_singleton.
Qed.

Ltac pvx :=
  repeat match goal with
  | |- forall _, _ => intro
  | |- pv _ (bind getT _) => let s := fresh in intros s; apply pr_getT; revert s
  | |- pv _ (bind _ _) => let s := fresh in intros s; apply pv_bind; [|intros]
  | |- pr _ _ _ => apply pv_pr
  | |- pv _ (if ?b then _ else _) => destruct b
  | |- pv _ (match ?x with _ => _ end) => destruct x
  | |- pv _ (let '(_, _) := ?x in _) => destruct x
  | |- pv _ (ret _) => apply pv_ret
  | |- pv _ panic => apply pv_panic
  | |- pv _ (loadN _) => apply pv_loadN
  | |- pv _ (loadL _) => apply pv_loadL
  | |- pv _ (storeN _ _) => apply pv_storeN
  | |- pv _ nextId => apply pv_nextId
  | |- pv _ (lift _) => apply pv_lift
  | |- pv _ (byteAt _ _) => apply pv_byteAt
  | |- pv _ (liftH (cloneN _ _)) => apply pv_liftH, hp_cloneN
  | |- pv _ (liftH (cloneL _ _)) => apply pv_liftH, hp_cloneL
  | |- pv _ (trackN _) => apply pv_trackN
  | |- pv _ (writeNode _ _) => apply pv_writeNode
  | |- pv _ (writeLeaf _ _) => apply pv_writeLeaf
  | |- pv _ allocLeaf => apply pv_allocLeaf
  | |- pv _ (setKV _ _ _) => by apply pv_setKV
  | |- pv _ (setNodeLeaf _ _) => apply pv_setNodeLeaf
  | |- pv _ (setChild _ _ _) => apply pv_setChild
  | |- pv _ (removeChild _ _) => apply pv_removeChild
  | |- pv _ (storeL _ _) => let s := fresh in intros s; apply pr_storeL; by right; right
  | |- pv _ (putT _) => fail 1
  end.

Lemma cp_writeNode a n la l s : t_track (s_t s) = true -> nd s !! a = Some n -> n_leaf n = Some la -> lv s !! la = Some l -> l_ch l = Some c -> cp (writeNode a true) s.
Proof.
  intros Ht Hn Hla Hl Hc. unfold writeNode. apply cp_l.
  - destruct (trackN_leaves a s Ht (ex_intro _ _ Hn)) as (s' & E & Hlv & Ht' & n1 & n2 & H1 & H2 & H3). eapply cp_r; [exact E|]. eapply cp_loadN; [exact H2|].
    rewrite H3. rewrite Hn in H1. injection H1 as <-. rewrite Hla. cbn [trackOptL]. eapply cp_trackL; [done|by rewrite Hlv|done].
  - pvx.
Qed.
Lemma cp_writeLeaf la l s : t_track (s_t s) = true -> lv s !! la = Some l -> l_ch l = Some c -> cp (writeLeaf la true) s.
Proof. intros Ht Hl Hc. unfold writeLeaf. apply cp_l; [by eapply cp_trackL|]. pvx. Qed.

(** ** Insert *)
Lemma cp_insert key v la l s : t_track (s_t s) = true -> lv s !! la = Some l -> l_ch l = Some c -> stored key -> t_tsize (s_t s) <> 0%N ->
  forall fuel,
  (forall p t v0, rep (s_h s) p t -> NoDup (fp t) -> celled t la key v0 -> 2 * (length key - length p) + 2 <= fuel ->
    cp (recursiveInsert fuel (aroot t) key v (length p)) s) /\
  (forall p a pre lf kids b t v0, rep (s_h s) p (Art a pre lf kids) -> NoDup (fp (Art a pre lf kids)) -> (b, t) ∈ kids -> celled t la key v0 ->
    2 * (length key - length p) + 1 <= fuel -> cp (insertInner fuel a key v (length p)) s).
Proof.
  intros Ht Hl Hc Hsk Hts.
  assert (Hpv : forall fuel node depth, pvt (recursiveInsert fuel node key v depth)) by (intros; by apply pv_recursiveInsert).
  induction fuel as [|fuel [IH1 IH2]]; (split; [intros p t v0 Hr Hnd Hce Hf|intros p a pre lf kids b t v0 Hr Hnd Hbt Hce Hf]); [lia|lia| |].
  - destruct t as [a pre lf kids]. pose proof Hr as Hr0.
    apply rep_inv in Hr as (n & Hn & Hlt & He & Hpl & Hlf & Hk1 & Hk2 & Hk3 & Hst & Hkids).
    cbn [recursiveInsert aroot]. apply cp_getT. rewrite (proj2 (N.eqb_neq _ _)) by done. eapply cp_loadN; [exact Hn|].
    apply celled_inv in Hce as [->|(b & t & Hbt & Hce)].
    + destruct Hlf as (Hnl & _ & l' & Hl' & Hlk & _). rewrite Hl in Hl'. injection Hl' as <-. rewrite Hnl. eapply cp_loadL; [exact Hl|].
      destruct (isLeafN n).
      * cbv zeta. rewrite Hlk, Nat.eqb_refl, (proj2 (bytes_eqb_true _ _)) by done. cbn [andb]. apply cp_l; [by eapply cp_writeNode|]. pvx.
      * rewrite Hlk, (proj2 (leafMatches_true _ _)) by done. apply cp_l; [by eapply cp_writeLeaf|]. pvx.
    + assert (Hne : kids <> []) by (intros ->; by apply elem_of_nil in Hbt).
      assert (Hin : cp (insertInner fuel a key v (length p)) s) by (eapply IH2; try done; lia).
      destruct lf as [[[la1 k] v1]|]; [|cbn in Hlf; by rewrite Hlf]. destruct Hlf as (Hnl & _ & l' & Hl' & Hlk & _). rewrite Hnl. eapply cp_loadL; [exact Hl'|].
      rewrite (rep_isLeaf _ _ _ _ _ _ _ Hr0 Hn), bool_decide_false by done.
      destruct (leafMatches (l_key l') key) eqn:Em; [|done]. exfalso. apply leafMatches_true in Em. rewrite Hlk in Em. rewrite Em in *. clear Em.
      destruct (Hk3 _ _ _ eq_refl) as [_ Hk]. destruct (Hk Hne) as [Ek Hd]. apply celled_leaves in Hce.
      destruct (rep_leaves _ _ _ _ _ (Hkids _ _ Hbt) Hce) as [[x Ex] _]. rewrite Ek, <- !app_assoc in Ex. apply app_inv_head, app_inv_head in Ex. injection Ex as <- _.
      apply Hd. apply elem_of_list_fmap. by exists (dollar, t).
  - pose proof Hr as Hr0. assert (Hne : kids <> []) by (intros ->; by apply elem_of_nil in Hbt).
    apply rep_inv in Hr as (n & Hn & Hlt & He & Hpl & Hlf & Hk1 & Hk2 & Hk3 & Hst & Hkids). destruct (Hk1 Hne) as (Hpn & Hpt & Hndol).
    pose proof (celled_leaves _ _ _ _ Hce) as Hin. destruct (rep_leaves _ _ _ _ _ (Hkids _ _ Hbt) Hin) as [[x Ex] _].
    assert (Ek : key = p ++ pre ++ b :: x) by (rewrite Ex, <- !app_assoc; done).
    assert (Hlk : key !! (length p + length pre) = Some b) by (rewrite Ek, app_assoc, lookup_app_r by (rewrite app_length; lia); by rewrite app_length, Nat.sub_diag).
    pose proof Hbt as Hbt0. apply elem_of_list_split in Hbt as (k1 & k2 & ->). rewrite ents_app in He.
    destruct (enc_set _ _ _ _ _ He) as (idx & Hfc & _). cbn in Hfc.
    assert (Hrec : cp (recursiveInsert fuel (aroot t) key v (length p + length pre + 1)) s).
    { replace (length p + length pre + 1) with (length (p ++ pre ++ [b])) by (rewrite !app_length; cbn; lia). eapply (IH1 _ t); [by apply Hkids| |done|].
      - rewrite fp_eq, kfp_app, kfp_cons, NoDup_cons in Hnd. destruct Hnd as [_ Hnd]. rewrite !NoDup_app in Hnd. tauto.
      - rewrite !app_length. cbn [length]. assert (length p + length pre + 1 <= length key); [|lia]. rewrite Ek, !app_length. cbn. lia. }
    cbn [insertInner]. eapply cp_loadN; [exact Hn|]. rewrite Hpn. destruct (Nat.ltb_spec 0 (length pre)).
    + eapply cp_r; [done|]. destruct (prefixMismatch_spec (s_h s) p a pre lf (k1 ++ (b, t) :: k2) n key) as (d & Ed & Hd); try done.
      { rewrite Ek. by eexists. }
      eapply cp_lift; [exact Ed|]. destruct (Nat.leb_spec (length pre) d).
      * cbv zeta. apply cp_assoc || idtac. rewrite (proj2 (Nat.ltb_lt _ _)) by (by eapply lookup_lt_Some).
        eapply (cp_r _ _ _ (Some (aroot t), idx) s).
        { unfold bind, byteAt. rewrite Hlk. unfold lift, ret. by rewrite Hfc. }
        cbn beta iota. apply cp_l; [exact Hrec|]. pvx.
      * exfalso. destruct Hd as [[? _]|[_ Hd]]; [lia|]. rewrite Ek, drop_app in Hd.
        assert (lcp pre (pre ++ b :: x) = length pre); [|lia]. clear. induction pre as [|y pre IH]; [done|]. cbn [lcp app]. rewrite Nat.eqb_refl. cbn. by rewrite IH.
    + assert (pre = []) as -> by (destruct pre; [done|cbn in *; lia]). cbn [length] in *. rewrite Nat.add_0_r in Hlk, Hrec.
      eapply cp_byteAt; [exact Hlk|]. eapply cp_lift; [exact Hfc|]. cbn beta iota. apply cp_l; [exact Hrec|]. pvx.
Qed.

(** ** Delete *)
Lemma cp_delete key la l s : t_track (s_t s) = true -> lv s !! la = Some l -> l_ch l = Some c -> stored key ->
  forall fuel p t v0, rep (s_h s) p t -> celled t la key v0 -> length key - length p + 1 <= fuel ->
    cp (recursiveDelete fuel (Some (aroot t)) key (length p)) s.
Proof.
  intros Ht Hl Hc Hsk. induction fuel as [|fuel IH]; intros p t v0 Hr Hce Hf; [lia|]. destruct t as [a pre lf kids]. pose proof Hr as Hr0.
  apply rep_inv in Hr as (n & Hn & Hlt & He & Hpl & Hlf & Hk1 & Hk2 & Hk3 & Hst & Hkids).
  cbn [recursiveDelete aroot]. eapply cp_loadN; [exact Hn|]. rewrite (rep_isLeaf _ _ _ _ _ _ _ Hr0 Hn), leafMatches_nil, andb_false_r by done.
  apply celled_inv in Hce as [->|(b & t & Hbt & Hce)].
  - destruct Hlf as (Hnl & _ & l' & Hl' & Hlk & _). rewrite Hl in Hl'. injection Hl' as <-. rewrite Hnl.
    assert (Hx : exists s1 n1, (if bool_decide (kids = []) then trackN a else ret tt) s = (Ok tt, s1) /\ lv s1 = lv s /\ t_track (s_t s1) = true /\
               nd s1 !! a = Some n1 /\ n_leaf n1 = Some la).
    { destruct (bool_decide _).
      - destruct (trackN_leaves a s Ht (ex_intro _ _ Hn)) as (s' & E & Hlv & Ht' & n1 & n2 & H1 & H2 & H3). exists s', n2. rewrite Hn in H1. injection H1 as <-.
        split_and!; try done. congruence.
      - exists s, n. done. }
    destruct Hx as (s1 & n1 & E1 & Hlv & Ht1 & Hn1 & Hnl1). eapply cp_r; [exact E1|]. eapply (cp_r _ _ _ (Some la) s1).
    { unfold bind, loadL, liftH, hloadL. rewrite Hlv, Hl. cbn. rewrite Hlk, (proj2 (leafMatches_true _ _)) by done. by destruct s1. }
    apply cp_l; [eapply cp_writeNode; [done|exact Hn1|exact Hnl1|rewrite Hlv; exact Hl|done]|]. pvx.
  - assert (Hne : kids <> []) by (intros ->; by apply elem_of_nil in Hbt). rewrite bool_decide_false by done. apply cp_ret.
    destruct (Hk1 Hne) as (Hpn & Hpt & Hndol).
    pose proof (celled_leaves _ _ _ _ Hce) as Hin. destruct (rep_leaves _ _ _ _ _ (Hkids _ _ Hbt) Hin) as [[x Ex] _].
    assert (Ek : key = p ++ pre ++ b :: x) by (rewrite Ex, <- !app_assoc; done).
    assert (Hlk : key !! (length p + length pre) = Some b) by (rewrite Ek, app_assoc, lookup_app_r by (rewrite app_length; lia); by rewrite app_length, Nat.sub_diag).
    eapply (cp_r _ _ _ None s).
    { destruct lf as [[[la1 k] v1]|]; [|cbn in Hlf; by rewrite Hlf]. destruct Hlf as (Hnl & _ & l' & Hl' & Hlk' & _). rewrite Hnl.
      unfold bind, loadL, liftH, hloadL. rewrite Hl'. cbn. destruct (leafMatches (l_key l') key) eqn:Em; [|by destruct s].
      exfalso. apply leafMatches_true in Em. rewrite Hlk' in Em. rewrite Em in *. clear Em.
      destruct (Hk3 _ _ _ eq_refl) as [_ Hk]. destruct (Hk Hne) as [Ek' Hd]. rewrite Ek in Ek'. apply app_inv_head, app_inv_head in Ek'. injection Ek' as -> _.
      apply Hd. apply elem_of_list_fmap. by exists (dollar, t). }
    eapply (cp_r _ _ _ false s).
    { destruct (Nat.ltb 0 (n_plen n)); [|done]. unfold bind, lift. rewrite Ek at 1. rewrite Hpn at 1. rewrite checkPrefix_match by done. by rewrite Hpn, Nat.eqb_refl. }
    cbv zeta. rewrite Hpn. eapply cp_byteAt; [exact Hlk|].
    pose proof Hbt as Hbt0. apply elem_of_list_split in Hbt as (k1 & k2 & ->). rewrite ents_app in He.
    destruct (enc_set _ _ _ _ _ He) as (idx & Hfc & _). cbn in Hfc. eapply cp_lift; [exact Hfc|]. cbn beta iota. apply cp_l.
    + replace (length p + length pre + 1) with (length (p ++ pre ++ [b])) by (rewrite !app_length; cbn; lia). eapply IH; [by apply Hkids|done|].
      rewrite !app_length. cbn [length]. assert (length p + length pre + 1 <= length key); [|lia]. rewrite Ek, !app_length. cbn. lia.
    + pvx.
Qed.
End Fires.
