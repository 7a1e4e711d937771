(** Insert, Delete and DeletePrefix, and the channels they record (ChanKind.v). *)
From Verif Require Export ChanOps Cells Top Insert2.
From stdpp Require Import list.
Local Open Scope nat_scope.

Section ChanRec.
Context {V : Type} `{GoZero V}.
Notation TM := (M (st V)).
Variable kk : bytes.
Variable c : chan.
Variable b : bool.
Notation tp := (ChanKind.tp (V:=V) kk c b).
Notation goodL := (ChanKind.goodL (V:=V) kk).
Notation goodN := (ChanKind.goodN (V:=V) kk).
Notation stable := (ChanKind.stable (V:=V) kk b).
Notation tT := (fun _ _ => True).
Ltac tb L := eapply tp_bind; [L|]; let St := fresh "St" in intros ? ? _ St ?; fwd St.

Variable key : bytes.
Hypothesis Hkk : b = true -> stored key /\ stored kk /\ key <> kk.

(** neither of the two keys is a prefix of the other *)
Definition apart : Prop := ~ getKey kk `prefix_of` getKey key /\ ~ getKey key `prefix_of` getKey kk.
(** the tree at [node] is represented, and key goes through it *)
Definition ipre (h : heap V) (node : addr) (depth : nat) : Prop := exists p t, rep h p t /\ NoDup (fp t) /\ node = aroot t /\ depth = length p /\ p `prefix_of` key /\
  (apart \/ exists la v, celled t la key v).
Definition ipreI (h : heap V) (node : addr) (depth : nat) : Prop := exists p pr lf kids, rep h p (Art node pr lf kids) /\ NoDup (fp (Art node pr lf kids)) /\ depth = length p /\ p `prefix_of` key /\
  kids <> [] /\ (apart \/ exists x t la v, (x, t) ∈ kids /\ celled t la key v).

Lemma find_kid (h : heap V) p a pr lf kids n x o idx : rep h p (Art a pr lf kids) -> h_nodes h !! a = Some n -> x < 256 -> findChild n x = Ok (o, idx) ->
  match o with None => x ∉ kids.*1 | Some ch => exists t, (x, t) ∈ kids /\ aroot t = ch end.
Proof.
  intros Hr Hn Hx Hf. apply rep_inv in Hr as (n' & Hn' & _ & He & _). rewrite Hn in Hn'. injection Hn' as <-.
  destruct (alook (ents kids) x) as [ch|] eqn:Ea.
  - pose proof (alook_Some_elem _ _ _ Ea) as Hin. apply elem_ents in Hin as (t & Ht & Et). apply alook_split in Ea as (l1 & l2 & Ee). rewrite Ee in He.
    destruct (enc_set _ _ _ _ _ He) as (i & Ei & _). rewrite Ei in Hf. injection Hf as <- <-. eauto.
  - rewrite (findChild_None _ _ _ He Hx Ea) in Hf. injection Hf as <- <-. apply alook_None in Ea. by rewrite ents_fst in Ea.
Qed.
Lemma prefix_getKey (k q : bytes) : stored k -> opn q -> q `prefix_of` k -> q `prefix_of` getKey k.
Proof.
  intros Hs Hq Hp. destruct (stored_ext k q Hs Hq Hp) as (y & z & ->). destruct Hs as (k0 & E & _). destruct z as [|z0 z _] using rev_ind.
  - apply app_inj_tail in E as [-> ->]. by rewrite getKey_snoc.
  - rewrite app_comm_cons, app_assoc in E |- *. apply app_inj_tail in E as [<- ->]. rewrite getKey_snoc. by eexists.
Qed.
(** the leaf of an inner node on the path of key does not hold kk *)
Lemma site_good (h : heap V) p a pr lf kids : rep h p (Art a pr lf kids) -> kids <> [] -> (p ++ pr) `prefix_of` key -> stored key -> ~ getKey kk `prefix_of` getKey key -> goodN h a.
Proof.
  intros Hr Hne Hp Hs Ha. apply rep_inv in Hr as (n & Hn & Hlt & He & Hpl & Hlf & Hk1 & Hk2 & Hk3 & Hst & Hkids). exists n. split; [done|]. intros la Hla.
  destruct lf as [[[la' k] v]|]; cbn in Hlf; [|by rewrite Hlf in Hla]. destruct Hlf as (E & _ & l & Hl & Ek & _). rewrite E in Hla. injection Hla as <-. exists l. split; [done|].
  intros E2. destruct (Hk3 _ _ _ eq_refl) as [_ Hx]. destruct (Hx Hne) as [Ek2 _]. apply Ha. rewrite <- E2, Ek, Ek2, app_assoc, getKey_snoc.
  apply prefix_getKey; [done| |done]. by destruct (Hk1 Hne) as (_ & _ & ?).
Qed.
Lemma celled_path (h : heap V) p a pr lf kids x t la v : rep h p (Art a pr lf kids) -> (x, t) ∈ kids -> celled t la key v -> (p ++ pr ++ [x]) `prefix_of` key.
Proof. intros Hr Hin Hc. eapply rep_leaves_kid; [done..|]. by eapply celled_leaves. Qed.

(** what is known at the place where the prefix of the node has been passed *)
Lemma ipreI_pass (h : heap V) node depth n : ipreI h node depth -> stored key -> h_nodes h !! node = Some n ->
  (0 < n_plen n -> exists d, prefixMismatch h node n key depth = Ok d /\ n_plen n <= d) ->
  exists p pr lf kids, rep h p (Art node pr lf kids) /\ NoDup (fp (Art node pr lf kids)) /\ depth + n_plen n = length (p ++ pr) /\ (p ++ pr) `prefix_of` key /\
   kids <> [] /\ (apart \/ exists x t la v, (x, t) ∈ kids /\ celled t la key v).
Proof.
  intros (p & pr & lf & kids & Hr & Hnd & -> & Hp & Hne & Hor) Hs Hn Hm. exists p, pr, lf, kids. pose proof Hr as Hr0.
  apply rep_inv in Hr as (n' & Hn' & Hlt & He & Hpl & Hlf & Hk1 & Hk2 & Hk3 & Hst & Hkids). rewrite Hn in Hn'. injection Hn' as <-. destruct (Hk1 Hne) as (Epl & _ & _).
  split; [done|]. split; [done|]. split; [by rewrite app_length, Epl|]. split; [|done]. destruct (decide (n_plen n = 0)) as [E0|Hpos].
  - rewrite E0 in Epl. destruct pr; [|done]. by rewrite app_nil_r.
  - destruct Hm as (d & Ed & Hd); [lia|]. destruct (prefixMismatch_spec h p node pr lf kids n key Hr0 Hnd Hn Hne Hs Hp) as (d' & Ed' & Hd'). rewrite Ed in Ed'. injection Ed' as <-.
    destruct Hd' as [[_ ?]|[? _]]; [done|lia].
Qed.
(** a stored key is never cut off *)
Lemma celled_mismatch (h : heap V) node depth n d : ipreI h node depth -> stored key -> h_nodes h !! node = Some n -> ~ n_plen n <= d -> prefixMismatch h node n key depth = Ok d -> apart.
Proof.
  intros (p & pr & lf & kids & Hr & Hnd & -> & Hp & Hne & Hor) Hs Hn Hd Em. destruct Hor as [|(x & t & la & v & Hin & Hc)]; [done|exfalso].
  pose proof (celled_path _ _ _ _ _ _ _ _ _ _ Hr Hin Hc) as Hpx. destruct (prefixMismatch_spec h p node pr lf kids n key Hr Hnd Hn Hne Hs Hp) as (d' & Ed' & Hd'). rewrite Em in Ed'. injection Ed' as <-.
  apply rep_inv in Hr as (n' & Hn' & Hlt & He & Hpl & Hlf & Hk1 & _). rewrite Hn in Hn'. injection Hn' as <-. destruct (Hk1 Hne) as (Epl & _ & _).
  destruct Hd' as [[? _]|[H1 H2]]; [lia|]. destruct Hpx as [y ->]. rewrite <- !app_assoc in H2. rewrite drop_app in H2. 
  assert (lcp pr (pr ++ [x] ++ y) = length pr) as E by (apply lcp_full; by eexists). lia.
Qed.
Lemma ipreI_child (h : heap V) p a pr lf kids n x ch idx : rep h p (Art a pr lf kids) -> NoDup (fp (Art a pr lf kids)) -> h_nodes h !! a = Some n -> (p ++ pr) `prefix_of` key -> stored key ->
  (apart \/ exists x t la v, (x, t) ∈ kids /\ celled t la key v) -> key !! length (p ++ pr) = Some x -> findChild n x = Ok (Some ch, idx) -> ipre h ch (length (p ++ pr) + 1).
Proof.
  intros Hr Hnd Hn Hp Hs Hor Hx Hf. destruct (find_kid _ _ _ _ _ _ _ _ _ _ Hr Hn (stored_lookup _ _ _ Hs Hx) Hf) as (t & Ht & <-).
  exists (p ++ pr ++ [x]), t. pose proof (rep_sorted _ _ _ _ _ _ Hr) as Hso. split; [|split; [|split; [done|split; [|split]]]].
  - apply rep_inv in Hr as (n' & _ & _ & _ & _ & _ & _ & _ & _ & _ & Hkids). by apply Hkids.
  - apply elem_of_list_split in Ht as (k1 & k2 & ->). rewrite fp_eq, kfp_app, kfp_cons in Hnd. apply NoDup_cons in Hnd as [_ Hnd]. apply NoDup_app in Hnd as (_ & _ & Hnd). apply NoDup_app in Hnd as (_ & _ & Hnd).
    by apply NoDup_app in Hnd as (? & _ & _).
  - rewrite !app_length. cbn. lia.
  - destruct Hp as [y E]. rewrite E in Hx. rewrite lookup_app_r, Nat.sub_diag in Hx by lia. destruct y as [|y0 y]; [done|]. cbn in Hx. injection Hx as ->. exists y. by rewrite E, <- !app_assoc.
  - destruct Hor as [|(x' & t' & la & v & Hin & Hc)]; [by left|right]. exists la, v. enough (t' = t) as -> by done.
    pose proof (celled_path _ _ _ _ _ _ _ _ _ _ Hr Hin Hc) as [y E]. rewrite E, app_assoc in Hx. rewrite <- app_assoc in Hx. rewrite lookup_app_r, Nat.sub_diag in Hx by lia. cbn in Hx. injection Hx as ->.
    apply elem_of_list_lookup in Ht as [i Hi]. apply elem_of_list_lookup in Hin as [j Hj]. assert (i = j) as ->; [|congruence].
    eapply NoDup_lookup; [exact Hso|..]; rewrite list_lookup_fmap; [by rewrite Hi|by rewrite Hj].
Qed.
Lemma ipreI_none (h : heap V) p a pr lf kids n x idx : rep h p (Art a pr lf kids) -> h_nodes h !! a = Some n -> stored key ->
  (apart \/ exists x t la v, (x, t) ∈ kids /\ celled t la key v) -> key !! length (p ++ pr) = Some x -> findChild n x = Ok (None, idx) -> apart.
Proof.
  intros Hr Hn Hs [|(x' & t' & la & v & Hin & Hc)] Hx Hf; [done|exfalso]. pose proof (celled_path _ _ _ _ _ _ _ _ _ _ Hr Hin Hc) as [y E].
  rewrite E, app_assoc in Hx. rewrite <- app_assoc in Hx. rewrite lookup_app_r, Nat.sub_diag in Hx by lia. cbn in Hx. injection Hx as ->.
  pose proof (find_kid _ _ _ _ _ _ _ _ _ _ Hr Hn (stored_lookup key (length (p ++ pr)) _ Hs ltac:(by rewrite E, app_assoc, <- app_assoc, lookup_app_r, Nat.sub_diag by lia)) Hf) as Hni.
  apply Hni. apply elem_of_list_fmap. by exists (x, t').
Qed.

Lemma stL2 (C : Prop) (h h' : heap V) a : stable h h' -> (C -> b = true -> goodL h a) -> C -> b = true -> goodL h' a.
Proof. intros Hs Hg HC Eb. by apply (Hs Eb), Hg. Qed.
Ltac fw St := cbv beta in *; lazymatch type of St with ChanKind.stable _ _ ?h ?h' => repeat match goal with
  | G : _ = true -> ChanKind.goodN _ h _ |- _ => let G' := fresh in pose proof (ChanOps.stN _ _ _ _ _ St G) as G'; clear G; rename G' into G
  | G : _ = true -> ChanKind.goodL _ h _ |- _ => let G' := fresh in pose proof (ChanOps.stL _ _ _ _ _ St G) as G'; clear G; rename G' into G
  | G : ?C -> _ = true -> ChanKind.goodL _ h _ |- _ => let G' := fresh in pose proof (stL2 C _ _ _ St G) as G'; clear G; rename G' into G
  | G : _ = true -> forall la, _ = Some la -> ChanKind.goodL _ h la |- _ => let G' := fresh in pose proof (st_leaf _ _ _ _ _ St G) as G'; clear G; rename G' into G
  end; clear St end.

(** ** Insert *)
Definition ientry (s : st V) (node : addr) (depth : nat) : Prop := if (t_tsize (s_t s) =? 0)%N then goodN (s_h s) node else ipre (s_h s) node depth.
Lemma tp_liftE {A} (o : outcome A) s : tp (lift o) s (fun x s' => s' = s /\ o = Ok x).
Proof. by apply tp_lift. Qed.
Lemma tp_byte k i s : tp (byteAt k i) s (fun x s' => s' = s /\ k !! i = Some x).
Proof. unfold byteAt. destruct (k !! i) as [x|]; [by apply tp_ret|apply tp_panic]. Qed.
Lemma tp_newInner {B} k pl (cond : bool) src (K : addr -> TM B) s Q : (forall a s', (b = true -> goodN (s_h s') a) -> stable (s_h s) (s_h s') -> tp (K a) s' Q) ->
  tp (let! nn := allocNode k in updN nn (fun n => Ok (set_plen n pl)) ;;; (if cond then panic else copyPartial nn src) ;;; K nn) s Q.
Proof.
  intros HK. eapply tp_bind; [apply tp_allocNode|]. intros nn s1 _ St1 G. eapply tp_bind; [apply tp_u; [by apply kc_ok|by apply kl_ok]|]. intros [] s2 _ St2 _. fwd St2.
  eapply (tp_bind _ _ _ _ _ _ tT); [destruct cond; [apply tp_panic|apply tp_copyPartial]|]. intros [] s3 _ St3 _. fwd St3. apply HK; [done|].
  eapply stable_trans; [exact St1|]. by eapply stable_trans.
Qed.
Lemma tp_split s node depth v nodeLeaf nl : h_leaves (s_h s) !! nodeLeaf = Some nl -> (b = true -> key <> kk /\ (l_key nl = kk -> apart)) ->
  tp (let! newLeaf2 := makeLeaf key v in
        let! nl2 := loadN newLeaf2 in
        trackN node ;;;
        let! node := writeNode node false in
        let! longestPrefix := lift (longestCommonPrefix key (l_key nl) depth) in
        let! newNode := allocNode K4 in
        updN newNode (fun n => Ok (set_plen n longestPrefix)) ;;;
        (if Nat.ltb (length key) (depth + (maxPrefixLen `min` longestPrefix)) then panic else
         copyPartial newNode (slice key depth (depth + (maxPrefixLen `min` longestPrefix)))) ;;;
        let! newNode :=
          (if has_prefix (getKey (l_key nl)) (getKey key) then
             trackL nodeLeaf ;;;
             setNodeLeaf newNode (n_leaf nl2) ;;;
             let! c := byteAt (l_key nl) (depth + longestPrefix) in
             addChild newNode c node
           else if has_prefix (getKey key) (getKey (l_key nl)) then
             setNodeLeaf newNode (Some nodeLeaf) ;;;
             let! c := byteAt key (depth + longestPrefix) in
             addChild newNode c newLeaf2
           else
             let! newNode :=
               (if Nat.ltb (depth + longestPrefix) (length (l_key nl)) then
                  let! c := byteAt (l_key nl) (depth + longestPrefix) in
                  addChild newNode c node
                else ret newNode) in
             if Nat.ltb (depth + longestPrefix) (length key) then
               let! c := byteAt key (depth + longestPrefix) in
               addChild newNode c newLeaf2
             else ret newNode) in
        ret (newNode, go_zero (V:=V), true, false)) s tT.
Proof.
  intros Hl Hk.
  assert (G : (has_prefix (getKey (l_key nl)) (getKey key) || has_prefix (getKey key) (getKey (l_key nl))) = true -> b = true -> goodL (s_h s) nodeLeaf).
  { intros Hp Eb. exists nl. split; [done|]. intros E. destruct (Hk Eb) as [_ Ha]. destruct (Ha E) as [A1 A2]. rewrite E in Hp. apply orb_true_iff in Hp as [Hp|Hp]; by apply has_prefix_true in Hp. }
  eapply tp_bind; [apply tp_makeLeaf; intros Eb; by apply Hk|]. intros a s' _ St Ga. fw St. eapply tp_bind; [apply tp_loadN|]. intros nl2 s1 _ _ [-> Hnl2].
  pose proof (good_leaf _ _ _ _ _ Hnl2 Ga) as Gl. clear Ga Hnl2. eapply tp_bind; [apply tp_trackN|]. intros [] s1 _ St1 _. fw St1.
  eapply tp_bind; [apply tp_writeNodeF|]. intros node' s2 _ St2 _. fw St2. eapply tp_bind; [apply tp_liftE|]. intros lp s3 _ _ [-> _]. apply tp_newInner. intros nn s3 Gn St3. fw St3.
  eapply (tp_bind _ _ _ _ _ _ tT); [|intros; by apply tp_ret]. destruct (has_prefix (getKey (l_key nl)) (getKey key)).
  - specialize (G eq_refl). eapply tp_bind; [by apply tp_trackL|]. intros [] s4 _ St4 _. fw St4. eapply tp_bind; [by apply tp_setNodeLeaf|]. intros [] s5 _ St5 _. fw St5.
    eapply tp_bind; [apply tp_byteAt|]. intros x s6 _ St6 _. fw St6. eapply tp_conseq; [by apply tp_addChild|done].
  - destruct (has_prefix (getKey key) (getKey (l_key nl))).
    + specialize (G eq_refl). eapply tp_bind; [apply tp_setNodeLeaf; intros Eb la [= <-]; by apply G|]. intros [] s5 _ St5 _. fw St5.
      eapply tp_bind; [apply tp_byteAt|]. intros x s6 _ St6 _. fw St6. eapply tp_conseq; [by apply tp_addChild|done].
    + eapply (tp_bind _ _ _ _ _ _ (fun a' s' => b = true -> goodN (s_h s') a')); [|intros nn2 s4 _ St4 G2; clear St4 Gn].
      { destruct (Nat.ltb _ _); [|apply tp_ret; exact Gn]. eapply tp_bind; [apply tp_byteAt|]. intros x s6 _ St6 _. fw St6. by apply tp_addChild. }
      destruct (Nat.ltb _ _); [|by apply tp_ret]. eapply tp_bind; [apply tp_byteAt|]. intros x s6 _ St6 _. cbv beta in G2. fw St6. eapply tp_conseq; [by apply tp_addChild|done].
Qed.
Lemma tp_setLeafKV node v s : (b = true -> key <> kk) -> (b = true -> goodN (s_h s) node) -> forall (r : V) (o : bool),
  tp (let! node := writeNode node true in let! newLeaf := allocLeaf in setKV newLeaf key v ;;; setNodeLeaf node (Some newLeaf) ;;; ret (node, r, true, o)) s tT.
Proof.
  intros Hk G r o. eapply tp_bind; [by apply tp_writeNode|]. intros node' s1 _ _ _. eapply tp_bind; [apply tp_allocLeaf|]. intros l s2 _ _ [i Hl].
  eapply tp_bind; [eapply tp_setKV; [exact Hl|done]|]. intros [] s3 _ _ Gl. eapply tp_bind; [apply tp_setNodeLeaf|]. { intros Eb la [= <-]. by apply Gl. }
  intros [] s4 _ _ _. by apply tp_ret.
Qed.
(** what a mutated child does to the node *)
Lemma tp_relink (node : addr) idx newChild (cond : bool) (r : V) (m o : bool) s : tp (let! node :=
    (if cond then trackN node ;;; let! node := writeNode node false in setChild node idx (Some newChild) ;;; ret node else ret node) in ret (node, r, m, o)) s tT.
Proof.
  eapply (tp_bind _ _ _ _ _ _ tT); [|intros; by apply tp_ret]. destruct cond; [|by apply tp_ret]. eapply tp_bind; [apply tp_trackN|]. intros [] s1 _ _ _.
  eapply tp_bind; [apply tp_writeNodeF|]. intros nd s2 _ _ _. eapply tp_bind; [apply tp_setChild|]. intros. by apply tp_ret.
Qed.
Lemma isLeaf_kids (h : heap V) p a pr lf kids n : rep h p (Art a pr lf kids) -> h_nodes h !! a = Some n -> isLeafN n = true <-> kids = [].
Proof. intros Hr Hn. rewrite (rep_isLeaf _ _ _ _ _ _ _ Hr Hn). apply bool_decide_eq_true. Qed.
Lemma ipre_inner s node depth n : (t_tsize (s_t s) =? 0)%N = false -> h_nodes (s_h s) !! node = Some n -> isLeafN n = false -> ientry s node depth ->
  (forall la l, n_leaf n = Some la -> h_leaves (s_h s) !! la = Some l -> l_key l <> key) -> ipreI (s_h s) node depth.
Proof.
  intros Ht Hn Hl He Hno. unfold ientry in He. rewrite Ht in He. destruct He as (p & [a pr lf kids] & Hr & Hnd & -> & -> & Hp & Hor). cbn in *. exists p, pr, lf, kids.
  split; [done|]. split; [done|]. split; [done|]. split; [done|]. split. { intros E. apply (isLeaf_kids _ _ _ _ _ _ _ Hr Hn) in E. congruence. }
  destruct Hor as [|(la & v & Hc)]; [by left|right]. apply celled_inv in Hc as [->|(x & t & Hin & Hc)]; [exfalso|eauto 10].
  apply rep_inv in Hr as (n' & Hn' & _ & _ & _ & Hlf & _). rewrite Hn in Hn'. injection Hn' as <-. cbn in Hlf. destruct Hlf as (El & _ & l & Hll & Ek & _). by apply (Hno la l).
Qed.
Lemma ipre_leaf s node depth n la l : (t_tsize (s_t s) =? 0)%N = false -> h_nodes (s_h s) !! node = Some n -> isLeafN n = true -> ientry s node depth ->
  n_leaf n = Some la -> h_leaves (s_h s) !! la = Some l -> l_key l <> key -> apart.
Proof.
  intros Ht Hn Hl He Hla Hll Hk. unfold ientry in He. rewrite Ht in He. destruct He as (p & [a pr lf kids] & Hr & Hnd & -> & -> & Hp & Hor). cbn in *. apply (isLeaf_kids _ _ _ _ _ _ _ Hr Hn) in Hl as ->.
  destruct Hor as [|(la' & v & Hc)]; [done|exfalso]. apply celled_inv in Hc as [->|(x & t & Hin & Hc)]; [|by apply elem_of_nil in Hin].
  apply rep_inv in Hr as (n' & Hn' & _ & _ & _ & Hlf & _). rewrite Hn in Hn'. injection Hn' as <-. cbn in Hlf. destruct Hlf as (El & _ & l' & Hll' & Ek & _). congruence.
Qed.
Lemma tp_insertRec v fuel : (forall s node depth, (b = true -> ientry s node depth) -> tp (recursiveInsert fuel node key v depth) s tT) /\
  (forall s node depth, (t_tsize (s_t s) =? 0)%N = false -> (b = true -> ipreI (s_h s) node depth) -> tp (insertInner fuel node key v depth) s tT).
Proof.
  induction fuel as [|fuel [IH1 IH2]]; [split; intros; apply tp_nofuel|]. split; intros s node depth.
  - intros He. cbn [recursiveInsert]. apply tp_getT. destruct (t_tsize (s_t s) =? 0)%N eqn:Ht.
    { apply tp_setLeafKV; [intros Eb; by apply Hkk|]. intros Eb. specialize (He Eb). unfold ientry in He. by rewrite Ht in He. }
    eapply tp_bind; [apply tp_loadN|]. intros n s' _ _ [-> Hn]. destruct (n_leaf n) as [nodeLeaf|] eqn:El.
    2:{ apply IH2; [done|]. intros Eb. destruct (isLeafN n) eqn:Eleaf; [exfalso|by apply (ipre_inner s node depth n); auto; congruence].
        specialize (He Eb). unfold ientry in He. rewrite Ht in He. destruct He as (p & [a pr lf kids] & Hr & Hnd & -> & -> & Hp & _). cbn in *. apply (isLeaf_kids _ _ _ _ _ _ _ Hr Hn) in Eleaf as ->.
        apply rep_inv in Hr as (n' & Hn' & _ & _ & _ & Hlf & _ & Hk2 & _). rewrite Hn in Hn'. injection Hn' as <-. destruct (Hk2 eq_refl) as (la & k & w & -> & _). destruct Hlf as (E & _). congruence. }
    eapply tp_bind; [apply tp_loadL|]. intros nl s' _ _ [-> Hnl].
    assert (Gn : b = true -> l_key nl = key -> goodN (s_h s) node).
    { intros Eb E. exists n. split; [done|]. intros la Hla. rewrite El in Hla. injection Hla as <-. exists nl. split; [done|]. rewrite E. by apply Hkk. }
    destruct (isLeafN n) eqn:Eleaf.
    + destruct (_ && _) eqn:Em.
      * apply andb_true_iff in Em as [_ Em]. apply bytes_eqb_true in Em. apply tp_setLeafKV; [intros Eb; by apply Hkk|]. intros Eb. by apply Gn.
      * apply tp_split; [done|]. intros Eb. split; [by apply Hkk|]. intros _. eapply ipre_leaf; [done..|by apply He|done|done|]. intros E. rewrite E, Nat.eqb_refl in Em. cbn in Em.
        assert (bytes_eqb key key = true) as E2 by by apply bytes_eqb_true. congruence.
    + destruct (leafMatches (l_key nl) key) eqn:Em.
      * apply leafMatches_true in Em. eapply tp_bind; [apply tp_writeLeaf|].
        { intros _ Eb. destruct (Gn Eb Em) as (n' & Hn' & Hg). rewrite Hn in Hn'. injection Hn' as <-. by apply Hg. }
        intros nl' s1 _ St1 G1. assert (Gl : b = true -> goodL (s_h s) nodeLeaf).
        { intros Eb. destruct (Gn Eb Em) as (n' & Hn' & Hg). rewrite Hn in Hn'. injection Hn' as <-. by apply Hg. }
        assert (G1' : b = true -> goodL (s_h s1) nl') by auto. clear G1. assert (Gn' : b = true -> goodN (s_h s) node) by auto. clear Gn. fw St1.
        eapply tp_bind; [apply tp_loadL|]. intros x s' _ _ [-> Hx]. eapply tp_bind; [eapply tp_storeL; [exact Hx|by right|]|].
        { done. }
        intros [] s2 _ St2 _. fw St2. eapply tp_bind; [by apply tp_writeNode|]. intros nd s3 _ St3 _. fw St3. eapply tp_bind; [apply tp_setNodeLeaf|]. { intros Eb la [= <-]. auto. }
        intros. by apply tp_ret.
      * apply IH2; [done|]. intros Eb. apply (ipre_inner s node depth n); auto. intros la l Hla Hl. rewrite El in Hla. injection Hla as <-. rewrite Hnl in Hl. injection Hl as <-.
        by apply leafMatches_false in Em.
  - intros Ht He. cbn [insertInner]. eapply tp_bind; [apply tp_loadN|]. intros n s' _ _ [-> Hn]. destruct (Nat.ltb_spec 0 (n_plen n)) as [Hpos|Hz].
    + apply tp_getH. eapply tp_bind; [apply tp_liftE|]. intros d s' _ _ [-> Ed]. destruct (Nat.leb_spec (n_plen n) d) as [Hle|Hgt].
      * assert (Hpass : b = true -> exists p pr lf kids, rep (s_h s) p (Art node pr lf kids) /\ NoDup (fp (Art node pr lf kids)) /\ depth + n_plen n = length (p ++ pr) /\ (p ++ pr) `prefix_of` key /\
            kids <> [] /\ (apart \/ exists x t la v, (x, t) ∈ kids /\ celled t la key v)).
        { intros Eb. apply (ipreI_pass _ _ _ _ (He Eb)); [by apply Hkk|done|eauto]. }
        eapply (tp_bind _ _ _ _ _ _ (fun r s' => s' = s /\ (Nat.ltb (depth + n_plen n) (length key) = true -> exists x, key !! (depth + n_plen n) = Some x /\ findChild n x = Ok r) /\
           (Nat.ltb (depth + n_plen n) (length key) = false -> r.1 = None))).
        { destruct (Nat.ltb _ _); [|by apply tp_ret]. eapply tp_bind; [apply tp_byte|]. intros x s' _ _ [-> Hx]. apply tp_lift. intros r Er. split; [done|]. split; [eauto|done]. }
        intros [child idx] s' _ _ (-> & Hlt & Hge). destruct child as [child|].
        -- destruct (Nat.ltb _ _); [|by specialize (Hge eq_refl)]. destruct (Hlt eq_refl) as (x & Hx & Hf). eapply tp_bind; [apply IH1|].
           { intros Eb. unfold ientry. rewrite Ht. destruct (Hpass Eb) as (p & pr & lf & kids & Hr & Hnd & Hd & Hp & Hne & Hor). rewrite Hd in *. eapply ipreI_child; try done. by apply Hkk. }
           intros [[[newChild val] mut] old] s1 _ _ _. apply tp_relink.
        -- assert (G : b = true -> goodN (s_h s) node).
           { intros Eb. destruct (Hpass Eb) as (p & pr & lf & kids & Hr & Hnd & Hd & Hp & Hne & Hor). eapply site_good; [done|done|done|by apply Hkk|]. enough apart as [? ?] by done.
             destruct (Nat.ltb_spec (depth + n_plen n) (length key)) as [Hl|Hl].
             - destruct (Hlt eq_refl) as (x & Hx & Hf). rewrite Hd in Hx. eapply ipreI_none; try done. by apply Hkk.
             - exfalso. destruct (Hkk Eb) as (Hs & _). apply rep_inv in Hr as (? & _ & _ & _ & _ & _ & Hk1 & _). destruct (Hk1 Hne) as (_ & _ & Hnod).
               destruct (stored_ext _ _ Hs Hnod Hp) as (y & z & E). rewrite E, Hd, !app_length in Hl. cbn in Hl. lia. }
           eapply tp_bind; [apply tp_makeLeaf; intros Eb; by apply Hkk|]. intros nl s1 _ St1 Gnl. fw St1.
           eapply (tp_bind _ _ _ _ _ _ (fun _ s' => s' = s1)). { destruct (n_leaf n); [|by apply tp_ret]. eapply tp_bind; [apply tp_loadL|]. intros l0 s' _ _ [-> _]. by apply tp_ret. }
           intros bad s' _ _ ->. destruct bad.
           ++ eapply tp_bind; [apply tp_trackN|]. intros [] s2 _ _ _. eapply tp_bind; [apply tp_writeNodeF|]. intros nd s3 _ _ _. eapply tp_bind; [apply tp_allocNode|]. intros. apply tp_panic.
           ++ eapply tp_bind; [apply tp_trackN|]. intros [] s2 _ St2 _. fw St2. eapply tp_bind; [apply tp_writeNodeF|]. intros nd s3 _ St3 Gnd.
              assert (Gnd' : b = true -> goodN (s_h s3) nd) by auto. clear Gnd St3 G Gnl. eapply (tp_bind _ _ _ _ _ _ tT); [|intros; by apply tp_ret]. destruct (Nat.ltb _ _); [|by apply tp_ret].
              eapply tp_bind; [apply tp_byteAt|]. intros x s4 _ St4 _. fw St4. eapply tp_conseq; [by apply tp_addChild|done].
      * apply tp_newInner. intros nn s1 Gn _. eapply tp_bind; [apply tp_trackN|]. intros [] s2 _ St2 _. fw St2. eapply tp_bind; [apply tp_writeNodeF|]. intros nd s3 _ St3 _. fw St3.
        eapply tp_bind; [apply tp_loadN|]. intros n3 s' _ _ [-> _].
        eapply (tp_bind _ _ _ _ _ _ (fun a' s' => b = true -> goodN (s_h s') a')).
        { destruct (Nat.leb _ _).
          - eapply tp_bind; [apply tp_byteAt|]. intros x s4 _ St4 _. fw St4. eapply tp_bind; [by apply tp_addChild|]. intros nn2 s5 _ _ G5. cbv beta in G5.
            eapply tp_bind; [apply tp_u; [by apply kc_ok|by apply kl_ok]|]. intros [] s6 _ St6 _. clear Gn. fw St6.
            eapply (tp_bind _ _ _ _ _ _ tT); [destruct (Nat.ltb _ _); [apply tp_panic|apply tp_copyPartial]|]. intros [] s7 _ St7 _. fw St7. by apply tp_ret.
          - eapply tp_bind; [apply tp_u; [by apply kc_ok|by apply kl_ok]|]. intros [] s6 _ St6 _. fw St6. apply tp_getH. eapply tp_bind; [apply tp_liftE|]. intros lo s' _ _ [-> _].
            destruct lo as [la|]; [|apply tp_panic]. eapply tp_bind; [apply tp_loadL|]. intros l s' _ _ [-> _]. eapply tp_bind; [apply tp_byteAt|]. intros x s4 _ St4 _. fw St4.
            eapply tp_bind; [by apply tp_addChild|]. intros nn2 s5 _ _ G5. cbv beta in G5. clear Gn.
            eapply (tp_bind _ _ _ _ _ _ tT); [destruct (Nat.ltb _ _); [apply tp_panic|apply tp_copyPartial]|]. intros [] s7 _ St7 _. fw St7. by apply tp_ret. }
        intros nn2 s4 _ _ G4. cbv beta in G4. clear Gn. eapply tp_bind; [apply tp_makeLeaf; intros Eb; by apply Hkk|]. intros nl s5 _ St5 Gnl. fw St5.
        eapply (tp_bind _ _ _ _ _ _ tT); [|intros; by apply tp_ret]. destruct (Nat.ltb _ _); [|by apply tp_ret].
        eapply tp_bind; [apply tp_byteAt|]. intros x s6 _ St6 _. fw St6. eapply tp_conseq; [by apply tp_addChild|done].
    + assert (E0 : n_plen n = 0) by lia. eapply tp_bind; [apply tp_byte|]. intros x s' _ _ [-> Hx]. eapply tp_bind; [apply tp_liftE|]. intros [child idx] s' _ _ [-> Hf].
      assert (Hpass : b = true -> exists p pr lf kids, rep (s_h s) p (Art node pr lf kids) /\ NoDup (fp (Art node pr lf kids)) /\ depth + n_plen n = length (p ++ pr) /\ (p ++ pr) `prefix_of` key /\
            kids <> [] /\ (apart \/ exists x t la v, (x, t) ∈ kids /\ celled t la key v)).
      { intros Eb. apply (ipreI_pass _ _ _ _ (He Eb)); [by apply Hkk|done|lia]. }
      rewrite E0, Nat.add_0_r in Hpass. destruct child as [child|].
      * eapply tp_bind; [apply IH1|].
        { intros Eb. unfold ientry. rewrite Ht. destruct (Hpass Eb) as (p & pr & lf & kids & Hr & Hnd & Hd & Hp & Hne & Hor). rewrite Hd in *. eapply ipreI_child; try done. by apply Hkk. }
        intros [[[newChild val] mut] old] s1 _ _ _. apply tp_relink.
      * assert (G : b = true -> goodN (s_h s) node).
        { intros Eb. destruct (Hpass Eb) as (p & pr & lf & kids & Hr & Hnd & Hd & Hp & Hne & Hor). eapply site_good; [done|done|done|by apply Hkk|]. enough apart as [? ?] by done.
          rewrite Hd in Hx. eapply ipreI_none; try done. by apply Hkk. }
        eapply tp_bind; [apply tp_makeLeaf; intros Eb; by apply Hkk|]. intros nl s1 _ St1 Gnl. fw St1. destruct (Nat.ltb _ _); [|by apply tp_ret].
        eapply tp_bind; [apply tp_trackN|]. intros [] s2 _ St2 _. fw St2. eapply tp_bind; [apply tp_writeNodeF|]. intros nd s3 _ St3 Gnd.
        assert (Gnd' : b = true -> goodN (s_h s3) nd) by auto. eapply tp_bind; [by apply tp_addChild|]. intros. by apply tp_ret.
Qed.
Lemma tp_putRoot s t r : t_chs t = t_chs (s_t s) -> tp (putT (set_t_root t r)) s tT.
Proof. intros E. eapply tp_conseq; [by apply tp_putT|done]. Qed.
Lemma tp_txnInsert k v s : key = getTreeKey k -> (b = true -> ientry s (t_root (s_t s)) 0) -> tp (txnInsert k v) s tT.
Proof.
  intros Ek He. unfold txnInsert. rewrite <- Ek. apply tp_getT. eapply tp_bind; [by apply (proj1 (tp_insertRec v _))|]. intros [[[newRoot oldVal] mu] old] s1 _ _ _.
  apply tp_getT. eapply tp_bind; [apply tp_putRoot; by destruct old|]. intros. by apply tp_ret.
Qed.

(** ** Delete of a stored key that does not extend kk *)
Definition dpre (h : heap V) (node : addr) (depth : nat) : Prop := ~ getKey kk `prefix_of` getKey key /\ exists p t la v, rep h p t /\ node = aroot t /\ depth = length p /\ celled t la key v.
Definition dpreI (h : heap V) (node : addr) (depth : nat) : Prop := ~ getKey kk `prefix_of` getKey key /\ exists p pr lf kids x t la v, rep h p (Art node pr lf kids) /\ depth = length p /\ (x, t) ∈ kids /\ celled t la key v.
Lemma dpreI_good (h : heap V) node depth : dpreI h node depth -> stored key -> goodN h node.
Proof.
  intros (Hno & p & pr & lf & kids & x & t & la & v & Hr & -> & Hin & Hc) Hs. pose proof (celled_path _ _ _ _ _ _ _ _ _ _ Hr Hin Hc) as Hp.
  eapply site_good; [exact Hr| | |done|done]; [by intros ->; apply elem_of_nil in Hin|]. by eapply app3_prefix.
Qed.
Lemma dpreI_child (h : heap V) node depth n x ch idx : dpreI h node depth -> stored key -> h_nodes h !! node = Some n -> key !! (depth + n_plen n) = Some x -> findChild n x = Ok (Some ch, idx) ->
  dpre h ch (depth + n_plen n + 1).
Proof.
  intros (Hno & p & pr & lf & kids & x0 & t & la & v & Hr & -> & Hin & Hc) Hs Hn Hx Hf. split; [done|]. assert (Hne : kids <> []) by (by intros ->; apply elem_of_nil in Hin).
  pose proof (celled_path _ _ _ _ _ _ _ _ _ _ Hr Hin Hc) as [y E]. pose proof (rep_sorted _ _ _ _ _ _ Hr) as Hso.
  assert (El : n_plen n = length pr). { apply rep_inv in Hr as (n' & Hn' & _ & _ & _ & _ & Hk1 & _). rewrite Hn in Hn'. injection Hn' as <-. by apply Hk1. }
  pose proof Hx as Hx0. rewrite El, <- app_length, E, app_assoc in Hx. rewrite <- app_assoc in Hx. rewrite lookup_app_r, Nat.sub_diag in Hx by lia. cbn in Hx. injection Hx as ->.
  destruct (find_kid _ _ _ _ _ _ _ _ _ _ Hr Hn (stored_lookup _ _ _ Hs Hx0) Hf) as (t' & Ht & <-). assert (t' = t) as ->.
  { apply elem_of_list_lookup in Ht as [i Hi]. apply elem_of_list_lookup in Hin as [j Hj]. assert (i = j) as ->; [|congruence].
    eapply NoDup_lookup; [exact Hso|..]; rewrite list_lookup_fmap; [by rewrite Hi|by rewrite Hj]. }
  exists (p ++ pr ++ [x]), t, la, v. split; [|split; [done|split; [|done]]].
  - apply rep_inv in Hr as (n' & _ & _ & _ & _ & _ & _ & _ & _ & _ & Hkids). by apply Hkids.
  - rewrite !app_length, El. cbn. lia.
Qed.
Lemma tp_deleteRec fuel : forall s onode depth, (b = true -> exists node, onode = Some node /\ dpre (s_h s) node depth) -> tp (recursiveDelete fuel onode key depth) s tT.
Proof.
  induction fuel as [|fuel IH]; intros s onode depth He; [apply tp_nofuel|]. cbn [recursiveDelete]. destruct onode as [node|]; [|by apply tp_ret].
  assert (He' : b = true -> dpre (s_h s) node depth). { intros Eb. by destruct (He Eb) as (? & [= <-] & ?). } clear He.
  eapply tp_bind; [apply tp_loadN|]. intros n s' _ _ [-> Hn].
  (* the state in which the rest runs, and what is known there *)
  eapply (tp_bind _ _ _ _ _ _ (fun _ s' => (exists n', h_nodes (s_h s') !! node = Some n' /\ n_leaf n' = n_leaf n) /\
    (b = true -> (forall la l, n_leaf n = Some la -> h_leaves (s_h s') !! la = Some l -> l_key l <> key) -> dpreI (s_h s') node depth /\ h_nodes (s_h s') !! node = Some n))).
  { assert (Hi : b = true -> (exists la l, n_leaf n = Some la /\ h_leaves (s_h s) !! la = Some l /\ l_key l = key) \/ (isLeafN n = false /\ dpreI (s_h s) node depth)).
    { intros Eb. destruct (He' Eb) as (Hno & p & [a pr lf kids] & la & v & Hr & -> & -> & Hc). cbn in *. apply celled_inv in Hc as [->|(x & t & Hin & Hc)].
      - left. apply rep_inv in Hr as (n' & Hn' & _ & _ & _ & Hlf & _). rewrite Hn in Hn'. injection Hn' as <-. cbn in Hlf. destruct Hlf as (El & _ & l & Hl & Ek & _). eauto 10.
      - right. split; [|split; [done|]; eauto 15]. destruct (isLeafN n) eqn:E; [|done]. apply (isLeaf_kids _ _ _ _ _ _ _ Hr Hn) in E as ->. by apply elem_of_nil in Hin. }
    destruct (isLeafN n).
    - eapply tp_conseq; [apply tp_trackN|]. intros [] [K1 K2]. split; [by apply K2|]. intros Eb Hno. destruct (Hi Eb) as [(la & l & El & Hl & Ek)|[? _]]; [|done]. exfalso.
      destruct (K1 _ _ Hl) as (l' & Hl' & Ek'). apply (Hno _ _ El Hl'). congruence.
    - apply tp_ret. split; [eauto|]. intros Eb Hno. destruct (Hi Eb) as [(la & l & El & Hl & Ek)|[_ ?]]; [|done]. exfalso. by apply (Hno _ _ El Hl). }
  intros [] s1 _ St1 [(n1 & Hn1 & Eln) Hd]. destruct (_ && _); [by apply tp_ret|].
  eapply (tp_bind _ _ _ _ _ _ (fun hit s' => s' = s1 /\ match hit with Some la => exists l, n_leaf n = Some la /\ h_leaves (s_h s1) !! la = Some l /\ l_key l = key
     | None => forall la l, n_leaf n = Some la -> h_leaves (s_h s1) !! la = Some l -> l_key l <> key end)).
  { destruct (n_leaf n) as [nodeL|]; [|by apply tp_ret]. eapply tp_bind; [apply tp_loadL|]. intros nl s' _ _ [-> Hnl]. apply tp_ret. split; [done|]. destruct (leafMatches (l_key nl) key) eqn:Em.
    - apply leafMatches_true in Em. eauto.
    - apply leafMatches_false in Em. intros la l [= <-] Hl. rewrite Hnl in Hl. by injection Hl as <-. }
  intros hit s' _ _ [-> Hh]. destruct hit as [nodeL|].
  - destruct Hh as (l & El & Hl & Ek). eapply tp_bind; [apply tp_writeNode|].
    { intros _ Eb. exists n1. split; [done|]. intros la Hla. rewrite Eln, El in Hla. injection Hla as <-. exists l. split; [done|]. rewrite Ek. by apply Hkk. }
    intros nd s2 _ _ _. eapply tp_bind; [apply tp_setNodeLeaf; done|]. intros [] s3 _ _ _. eapply tp_bind; [apply tp_loadN|]. intros n4 s' _ _ [-> _]. destruct (Nat.ltb _ _); by apply tp_ret.
  - assert (Hd' : b = true -> dpreI (s_h s1) node depth /\ h_nodes (s_h s1) !! node = Some n) by auto. clear Hd Hh.
    eapply (tp_bind _ _ _ _ _ _ (fun _ s' => s' = s1)). { destruct (Nat.ltb _ _); [|by apply tp_ret]. eapply tp_bind; [apply tp_liftE|]. intros pl s' _ _ [-> _]. by apply tp_ret. }
    intros bail s' _ _ ->. destruct bail; [by apply tp_ret|]. eapply tp_bind; [apply tp_byte|]. intros x s' _ _ [-> Hx]. eapply tp_bind; [apply tp_liftE|]. intros [child idx] s' _ _ [-> Hf].
    destruct child as [child|]; [|by apply tp_ret].
    assert (G : b = true -> goodN (s_h s1) node). { intros Eb. destruct (Hd' Eb) as [Hdi _]. eapply dpreI_good; [done|]. by apply Hkk. }
    eapply tp_bind; [apply IH|].
    { intros Eb. exists child. split; [done|]. destruct (Hd' Eb) as [Hdi Hn']. eapply dpreI_child; [done|by apply Hkk|done|done|done]. }
    intros [[newChild val] mutate] s2 _ St2 _. fw St2. eapply (tp_bind _ _ _ _ _ _ tT).
    { destruct (_ || _); [|by apply tp_ret]. eapply tp_bind; [apply tp_trackN|]. intros [] s3 _ St3 _. fw St3. eapply tp_bind; [apply tp_writeNodeF|]. intros nd s4 _ St4 Gnd.
      assert (Gnd' : b = true -> goodN (s_h s4) nd) by auto. clear Gnd St4 G. eapply tp_bind; [apply tp_setChild|]. intros [] s5 _ St5 _. fw St5. destruct newChild; [by apply tp_ret|]. by apply tp_removeChild. }
    intros nd s3 _ _ _. eapply tp_bind; [apply tp_loadN|]. intros n4 s' _ _ [-> _]. destruct (Nat.eqb _ _); [destruct (is_some _)|]; by apply tp_ret.
Qed.
Lemma tp_txnDelete k s : key = getTreeKey k -> (b = true -> dpre (s_h s) (t_root (s_t s)) 0) -> tp (txnDelete k) s tT.
Proof.
  intros Ek He. unfold txnDelete. rewrite <- Ek. apply tp_getT. eapply tp_bind; [apply tp_deleteRec; eauto|]. intros [[newRoot l] mu] s1 _ _ _.
  eapply (tp_bind _ _ _ _ _ _ tT). { destruct newRoot; [|apply tp_installEmptyRoot]. apply tp_getT. by apply tp_putRoot. }
  intros [] s2 _ _ _. destruct l as [x|]; [|by apply tp_ret]. apply tp_getT. eapply tp_bind; [apply tp_trackN|]. intros [] s3 _ _ _. apply tp_getT.
  eapply (tp_bind _ _ _ _ _ _ tT); [eapply tp_conseq; [by apply tp_putT|done]|]. intros [] s4 _ _ _. destruct x; [by apply tp_ret|]. eapply tp_bind; [apply tp_loadL|]. intros. by apply tp_ret.
Qed.

(** ** DeletePrefix: nothing is claimed about what it records *)
Hypothesis Hb : b = false.
Lemma nob (P : Prop) : b = true -> P.
Proof. by rewrite Hb. Qed.
Lemma kl_compact m l : forall n slow k n' s' k', compact_loop m n slow k l = Ok (n', s', k') -> n_leaf n' = n_leaf n.
Proof. intros n slow k n' s' k' E. by apply (kp_compact (fun _ => True) I m n slow k l n' s' k' E (FT _) (FT _)). Qed.
Lemma tp_deletePrefixRec fuel : forall s onode k depth, tp (deletePrefix fuel onode k depth) s tT.
Proof.
  induction fuel as [|fuel IH]; intros s onode k depth; [apply tp_nofuel|]. cbn [deletePrefix]. destruct onode as [node|]; [|by apply tp_ret].
  eapply tp_bind; [apply tp_loadN|]. intros n s' _ _ [-> Hn]. destruct (isLeafN n).
  - destruct (n_leaf n) as [nL|]; [|by apply tp_ret]. eapply tp_bind; [apply tp_loadL|]. intros nl s' _ _ [-> _]. destruct (has_prefix _ _); [|by apply tp_ret].
    eapply tp_bind; [apply tp_trackN|]. intros [] s1 _ _ _. eapply tp_bind; [apply tp_trackL; apply nob|]. intros. by apply tp_ret.
  - eapply (tp_bind _ _ _ _ _ _ tT). { destruct (Nat.ltb _ _); [|by apply tp_ret]. eapply tp_bind; [apply tp_liftE|]. intros. by apply tp_ret. }
    intros d s1 _ _ _. eapply (tp_bind _ _ _ _ _ _ tT).
    { destruct (n_leaf n) as [nL|]; [|by apply tp_ret]. eapply tp_bind; [apply tp_loadL|]. intros nl s' _ _ [-> _]. destruct (has_prefix _ _); [|by apply tp_ret].
      eapply tp_bind; [apply tp_trackL; apply nob|]. intros. by apply tp_ret. }
    intros nd s2 _ _ _. eapply (tp_bind _ _ _ _ _ _ tT).
    { match goal with |- ChanKind.tp _ _ _ (?f _ _ _ _) _ _ => assert (Hl : forall chs idx m nd s, tp (f chs idx m nd) s tT); [|apply Hl] end.
      induction chs as [|[ch|] chs IHc]; intros idx m nd' s'; [by apply tp_ret| |apply IHc].
      eapply tp_bind; [apply IH|]. intros [newCh del] s3 _ _ _. eapply (tp_bind _ _ _ _ _ _ tT). { destruct (Nat.ltb _ _); [|by apply tp_ret]. eapply tp_conseq; [apply tp_trackN|done]. }
      intros [] s4 _ _ _. apply IHc. }
    intros [m numDel] s3 _ _ _. eapply tp_bind; [apply tp_writeNode; intros _; apply nob|]. intros nd2 s4 _ _ _. eapply tp_bind; [apply tp_loadN|]. intros n4 s' _ _ [-> Hn4].
    eapply tp_bind; [apply tp_liftE|]. intros [[n' slow] numCh] s' _ _ [-> Ec]. eapply tp_bind; [eapply tp_storeSame; [exact Hn4|..]|].
    + cbn. by eapply compact_ch.
    + cbn. by eapply kl_compact.
    + intros. by apply tp_ret.
Qed.
Lemma tp_txnDeletePrefix k s : tp (txnDeletePrefix k) s tT.
Proof.
  unfold txnDeletePrefix. apply tp_getT. apply tp_getH. eapply tp_bind; [apply tp_deletePrefixRec|]. intros [newRoot nd] s1 _ _ _.
  eapply (tp_bind _ _ _ _ _ _ tT). { destruct newRoot; [|apply tp_installEmptyRoot]. apply tp_getT. by apply tp_putRoot. }
  intros [] s2 _ _ _. destruct (Nat.eqb _ _); [by apply tp_ret|]. apply tp_getT. eapply tp_bind; [apply tp_trackN|]. intros [] s3 _ _ _. apply tp_getT.
  eapply (tp_bind _ _ _ _ _ _ tT); [eapply tp_conseq; [by apply tp_putT|done]|]. intros [] s4 _ _ _. by apply tp_ret.
Qed.
End ChanRec.
