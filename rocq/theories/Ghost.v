(** Trees whose root has a leaf with the empty stored key.  Such a root appears when a tree whose Len is not
    zero has lost its last key and a key is inserted (txn.go:269-275, 100, 146).  Renaming the empty stored key to
    the one of the empty key gives an ordinary tree. *)
From Verif Require Export AbsDel.
From stdpp Require Export list.
Local Open Scope nat_scope.

Section Ghost.
Context {V : Type} `{GoZero V}.
Notation art := (art V).
Notation TM := (M (st V)).
Notation nd s := (h_nodes (s_h s)).
Notation lv s := (h_leaves (s_h s)).
Notation nx s := (h_next (s_h s)).

(** ** Swapping the stored keys [] and [dollar] *)
Definition rnk (k : bytes) : bytes := if decide (k = []) then [dollar] else if decide (k = [dollar]) then [] else k.
Definition rnl (l : lnode V) : lnode V := setl_key l (rnk (l_key l)).
Definition rnh (h : heap V) : heap V := mkH (h_nodes h) (rnl <$> h_leaves h) (h_next h) (h_nextch h) (h_closed h).
Definition rnS (s : st V) : st V := mkS (rnh (s_h s)) (s_t s).

Lemma rnk_id k : k <> [] -> k <> [dollar] -> rnk k = k.
Proof. intros. unfold rnk. by rewrite !decide_False. Qed.
Lemma rnk_rnk k : rnk (rnk k) = k.
Proof.
  unfold rnk. destruct (decide (k = [])) as [->|H1]; [by rewrite decide_False, decide_True|].
  destruct (decide (k = [dollar])) as [->|H2]; [by rewrite decide_True|]. by rewrite !decide_False.
Qed.
Lemma rnk_dollar k : rnk k = [dollar] -> k = [].
Proof. intros E. rewrite <- (rnk_rnk k), E. done. Qed.
Lemma rnh_rnh h : rnh (rnh h) = h.
Proof.
  destruct h as [ns ls nx nc cl]. unfold rnh. cbn. f_equal. rewrite <- map_fmap_compose. rewrite <- (map_fmap_id ls) at 2.
  apply map_fmap_ext. intros i l _. destruct l. unfold rnl. cbn. by rewrite rnk_rnk.
Qed.
Lemma rnh_leaf h a l : h_leaves h !! a = Some l -> h_leaves (rnh h) !! a = Some (rnl l).
Proof. intros E. cbn. by rewrite lookup_fmap, E. Qed.
Lemma rnh_leaf_inv h a l : h_leaves (rnh h) !! a = Some l -> exists l0, h_leaves h !! a = Some l0 /\ l = rnl l0.
Proof. cbn. rewrite lookup_fmap. destruct (h_leaves h !! a) as [l0|]; [|done]. intros [= <-]. eauto. Qed.

Lemma rnh_leafok h c P : leafok (rnh h) c P <-> leafok h c (fun k => P (rnk k)).
Proof.
  unfold leafok. cbn [h_next h_nodes rnh]. split; intros (Hc & n & Hn & Hl); (split; [done|]); exists n; (split; [done|]); (destruct (n_leaf n) as [la|]; [|done]);
    destruct Hl as (Hla & l & Hl & HP); (split; [done|]).
  - apply rnh_leaf_inv in Hl as (l0 & Hl0 & ->). exists l0. done.
  - exists (rnl l). split; [by apply rnh_leaf|done].
Qed.
Lemma upd_rn X s s' : upd X s s' -> upd X (rnS s) (rnS s').
Proof.
  intros [Ht Hn Hs Hx]. split; [done|done| |].
  - intros x Hxl HX. destruct (Hs x Hxl HX) as [E1 E2]. split; [done|]. cbn. rewrite !lookup_fmap. by rewrite E2.
  - intros c P. cbn [rnS s_h]. rewrite !rnh_leafok. apply Hx.
Qed.

Lemma leafrep_rn h o lf : leafrep h o lf -> (forall la k v, lf = Some (la, k, v) -> rnk k = k) -> leafrep (rnh h) o lf.
Proof.
  destruct lf as [[[la k] v]|]; [|done]. intros (-> & Hlt & l & Hl & Hk & Hv) Hne. split; [done|]. split; [done|].
  exists (rnl l). split; [by apply rnh_leaf|]. cbn. rewrite Hk, Hv. split; [|done]. by eapply Hne.
Qed.
Lemma rnk_below b p k : b <> dollar -> (b :: p) `prefix_of` k -> rnk k = k.
Proof. intros Hb [z ->]. apply rnk_id; [done|]. intros E. by injection E as -> _. Qed.

Lemma rep_rn h b p (t : art) : b <> dollar -> rep h (b :: p) t -> rep (rnh h) (b :: p) t.
Proof.
  intros Hb. revert p. induction t as [a pre lf kids IH] using art_ind'. intros p Hr. pose proof (fun n => rep_low _ _ _ _ _ _ n Hr) as Hlow. pose proof Hr as Hr0.
  apply rep_inv in Hr as (n & Hn & Hlt & He & Hpl & Hlf & Hk1 & Hk2 & Hk3 & Hst & Hkids).
  apply (rep_node _ _ _ _ _ _ n); try done.
  - apply leafrep_rn; [done|]. intros la k v ->. eapply rnk_below; [exact Hb|]. eapply (rep_leaves _ _ _ k v); [exact Hr0|]. apply elem_leaves. left. eauto.
  - intros c Hc. destruct (Hst c Hc) as (b' & Hb' & Hok). exists b'. split; [done|]. apply rnh_leafok.
    destruct Hok as (Hc1 & m & Hm & Hl). split; [done|]. exists m. split; [done|]. destruct (n_leaf m); [|done]. destruct Hl as (Hl1 & l & Hl2 & Hl3).
    split; [done|]. exists l. split; [done|]. erewrite rnk_below; [done|exact Hb|]. by apply prefix_app_l in Hl3.
  - intros b' t Hbt. pose proof (Hkids _ _ Hbt) as Hx. cbn in Hx |- *. by eapply IH.
  - by apply Hlow.
Qed.
Lemma rep_unrn h b p (t : art) : b <> dollar -> rep (rnh h) (b :: p) t -> rep h (b :: p) t.
Proof. intros Hb Hr. rewrite <- (rnh_rnh h). by apply rep_rn. Qed.

(** ** Programs that do not look at the keys of leaves *)
Definition comm {A} (m : TM A) : Prop := forall s, m (rnS s) = ((m s).1, rnS (m s).2).

Lemma comm_ret {A} (a : A) : comm (ret a).
Proof. done. Qed.
Lemma comm_panic {A} : comm (panic : TM A).
Proof. done. Qed.
Lemma comm_lift {A} (o : outcome A) : comm (lift o).
Proof. intros s. by destruct o. Qed.
Lemma comm_bind {A B} (m : TM A) (k : A -> TM B) : comm m -> (forall a, comm (k a)) -> comm (bind m k).
Proof.
  intros Hm Hk s. unfold bind. rewrite Hm. destruct (m s) as [[a| |] s1]; cbn; [apply Hk|done|done].
Qed.
Lemma comm_loadN a : comm (loadN a).
Proof. intros s. unfold loadN, liftH, hloadN. cbn. by destruct (nd s !! a). Qed.
Lemma comm_storeN a n : comm (storeN a n).
Proof. intros s. done. Qed.
Lemma comm_updN a f : comm (updN a f).
Proof. apply comm_bind; [apply comm_loadN|]. intros n. apply comm_bind; [apply comm_lift|]. intros n'. apply comm_storeN. Qed.
Lemma comm_allocNode k : comm (allocNode k).
Proof. intros s. done. Qed.
Lemma comm_ewriteNode a : comm (ewriteNode a).
Proof. intros s. unfold ewriteNode. cbn. destruct (nd s !! a) as [n|]; [|done]. by destruct (Nat.ltb _ _). Qed.
Lemma comm_ewriteLeaf a : comm (ewriteLeaf a).
Proof.
  intros s. unfold ewriteLeaf. cbn. rewrite lookup_fmap. destruct (lv s !! a) as [l|]; [|done]. cbn [fmap option_fmap option_map].
  change (l_id (rnl l)) with (l_id l). destruct (Nat.ltb _ _); [done|]. cbn. f_equal. unfold rnS, rnh. cbn. f_equal. f_equal.
  by rewrite fmap_insert.
Qed.
Lemma comm_setNodeLeaf a o : comm (setNodeLeaf a o).
Proof. apply comm_updN. Qed.
Lemma comm_setChild a i c : comm (setChild a i c).
Proof. apply comm_updN. Qed.
Lemma comm_emoveLeaf a o : comm (emoveLeaf a o).
Proof. destruct o; cbn; [|apply comm_ret]. apply comm_bind; [apply comm_ewriteLeaf|]. intros. apply comm_setNodeLeaf. Qed.
Ltac comm := repeat first
  [ apply comm_ret | apply comm_panic | apply comm_lift | apply comm_loadN | apply comm_storeN | apply comm_updN | apply comm_allocNode
  | apply comm_ewriteNode | apply comm_ewriteLeaf | apply comm_emoveLeaf | apply comm_setNodeLeaf
  | lazymatch goal with |- comm (bind _ _) => apply comm_bind; [|intros ?] end ].
Lemma comm_addChild256 a c child : comm (addChild256 a c child).
Proof. unfold addChild256. comm. Qed.
Lemma comm_eaddChild48 a c child : comm (eaddChild48 a c child).
Proof. unfold eaddChild48. comm. destruct (Nat.ltb _ _); comm. apply comm_addChild256. Qed.
Lemma comm_eaddChild16 a c child : comm (eaddChild16 a c child).
Proof. unfold eaddChild16. comm. destruct (Nat.ltb _ _); comm. apply comm_eaddChild48. Qed.
Lemma comm_eaddChild4 a c child : comm (eaddChild4 a c child).
Proof. unfold eaddChild4. comm. destruct (Nat.ltb _ _); comm. apply comm_eaddChild16. Qed.
Lemma comm_eaddChild a c child : comm (eaddChild a c child).
Proof. unfold eaddChild. comm. destruct (n_kind _); [apply comm_eaddChild4|apply comm_eaddChild16|apply comm_eaddChild48|apply comm_addChild256]. Qed.
Lemma comm_eremoveChild a c : comm (eremoveChild a c).
Proof.
  unfold eremoveChild, eremoveChild4, eremoveChild16, eremoveChild48, eremoveChild256.
  repeat (comm; lazymatch goal with |- comm (match ?x with _ => _ end) => destruct x end).
Qed.

Lemma wp_rn {A} (m : TM A) (Q : A -> st V -> Prop) s : comm m -> wp m (fun a s' => forall s0, s' = rnS s0 -> Q a s0) (rnS s) -> wp m Q s.
Proof. intros Hc Hw. unfold wp in *. rewrite Hc in Hw. destruct (m s) as [[a| |] s1]; cbn in Hw; [|done..]. by apply Hw. Qed.

(** ** The root with the empty stored key *)
Notation kmap := (gmap (list nat) V).
Definition below_root (kids : list (nat * art)) (m : kmap) : Prop :=
  forall k v, outside None kids k v <-> exists k0, k = k0 ++ [dollar] /\ m !! k0 = Some v.
Definition ghost (h : heap V) (a : addr) (m : kmap) : Prop :=
  exists la z kids, rep (rnh h) [] (Art a [] (Some (la, [dollar], z)) kids) /\ kids <> [] /\
    NoDup (fp (Art a [] (Some (la, [dollar], z)) kids)) /\ below_root kids m.

Lemma ghost_inv h a m : ghost h a m -> exists n la l kids, h_nodes h !! a = Some n /\ h_leaves h !! la = Some l /\ l_key l = [] /\ n_leaf n = Some la /\
  rep (rnh h) [] (Art a [] (Some (la, [dollar], l_val l)) kids) /\ kids <> [] /\ NoDup (fp (Art a [] (Some (la, [dollar], l_val l)) kids)) /\ below_root kids m /\
  n_plen n = 0 /\ isLeafN n = false /\ enc n (ents kids) /\ dollar ∉ kids.*1 /\ (forall b t, (b, t) ∈ kids -> b <> dollar /\ b < 256 /\ rep h [b] t) /\ length kids < 256.
Proof.
  intros (la & z & kids & Hr & Hne & Hnd & Hc). pose proof Hr as Hr0.
  apply rep_inv in Hr as (n & Hn & Hlt & He & Hpl & Hlf & Hk1 & Hk2 & Hk3 & Hst & Hkids).
  destruct Hlf as (Hnl & Hlalt & l & Hl & Hlk & Hlv). apply rnh_leaf_inv in Hl as (l0 & Hl & ->). cbn in Hlk, Hlv. apply rnk_dollar in Hlk. subst z.
  destruct (Hk3 _ _ _ eq_refl) as [_ Hd]. destruct (Hd Hne) as [_ Hd']. destruct (Hk1 Hne) as (Hpn & _ & _).
  pose proof (rep_isLeaf _ _ _ _ _ _ _ Hr0 Hn) as His. rewrite bool_decide_eq_false_2 in His by done.
  assert (Hby : forall b, b ∈ kids.*1 -> b < 256).
  { intros b Hb. pose proof (enc_byte _ _ He) as Hby. rewrite Forall_forall in Hby.
    apply elem_of_list_fmap in Hb as ([b' t] & -> & Hx). apply (Hby (b', aroot t)). apply elem_ents. eauto. }
  exists n, la, l0, kids. split_and!; try done.
  - intros b t Hbt. assert (Hb1 : b ∈ kids.*1) by (apply elem_of_list_fmap; by exists (b, t)). assert (Hb : b <> dollar) by (by intros ->).
    split; [done|]. split; [by apply Hby|]. apply rep_unrn; [done|]. by apply (Hkids b t).
  - destruct (decide (length kids < 256)) as [|Hge]; [done|exfalso]. apply Hd'. apply all_bytes; [by eapply rep_sorted| |by rewrite fmap_length; lia|unfold dollar; lia].
    apply Forall_forall. intros x Hx. by apply Hby.
Qed.
Lemma ghost_nil h a m : ghost h a m -> m !! [] = None.
Proof.
  intros Hg. apply ghost_inv in Hg as (n & la & l & kids & _ & _ & _ & _ & _ & _ & _ & Hc & _ & _ & _ & _ & Hk & _). destruct (m !! []) as [v|] eqn:E; [|done]. exfalso.
  assert (Ho : outside None kids [dollar] v) by (apply Hc; by exists []). destruct Ho as [(? & [=])|(b & t & Hbt & Hx)].
  destruct (Hk _ _ Hbt) as (Hb & _ & Hr). destruct (rep_leaves _ _ _ _ _ Hr Hx) as [[z Hz] _]. by injection Hz as <- _.
Qed.
Lemma ghost_valid h a m k v : ghost h a m -> m !! k = Some v -> valid_key k.
Proof.
  intros Hg Hm. apply ghost_inv in Hg as (n & la & l & kids & _ & _ & _ & _ & _ & _ & _ & Hc & _ & _ & _ & _ & Hk & _).
  assert (Ho : outside None kids (k ++ [dollar]) v) by (apply Hc; eauto). destruct Ho as [(? & [=])|(b & t & Hbt & Hx)].
  destruct (Hk _ _ Hbt) as (Hb & _ & Hr). destruct (rep_leaves _ _ _ _ _ Hr Hx) as [_ (k0 & E & Hv)]. by apply app_inj_tail in E as [-> _].
Qed.
Lemma ghost_ne h a m : ghost h a m -> m <> ∅.
Proof.
  intros Hg ->. apply ghost_inv in Hg as (n & la & l & kids & _ & _ & _ & _ & _ & Hne & _ & Hc & _ & _ & _ & _ & Hk & _).
  destruct kids as [|[b t] kids]; [done|]. destruct (Hk b t) as (_ & _ & Hr); [left|]. destruct (rep_nonempty _ _ _ Hr) as (k & v & Hin).
  destruct (proj1 (Hc k v)) as (k0 & _ & E); [|done]. right. exists b, t. split; [left|done].
Qed.

(** What an Insert leaves behind *)
Definition gins_post (s : st V) (m : kmap) (k : bytes) (v : V) (r : addr * V * bool * bool) (s' : st V) : Prop :=
  r.1.2 = true /\ ghost (s_h s') r.1.1.1 (<[k := v]> m) /\ (exists mx, s_t s' = set_t_max (s_t s) mx) /\
  (if r.2 then m !! k = Some r.1.1.2 else r.1.1.2 = go_zero /\ (m !! k = None \/ shadowed m k)).

Lemma gins_done (s s' : st V) a la z kids m k v a' la' kids' r : k <> [] -> valid_key k -> below_root kids m -> m !! [] = None -> kids' <> [] ->
  ins_at (rnS s) [] (Art a [] (Some (la, [dollar], z)) kids) (getTreeKey k) v (Art a' [] (Some (la', [dollar], z)) kids') r (rnS s') ->
  gins_post s m k v r s'.
Proof.
  intros Hkne Hv Hc Hm0 Hne' (E1 & E2 & Hr & Hnd & _ & HU & Hl & Hrep & _). destruct (upd_t _ _ _ HU) as [mx Et].
  assert (Hkd : getTreeKey k <> [dollar]) by (unfold getTreeKey; intros E; by destruct k as [|? [|? ?]]).
  assert (Hin : forall k1 v1, (k1, v1) ∈ leaves (Art a [] (Some (la, [dollar], z)) kids) <-> (k1 = [dollar] /\ v1 = z) \/ outside None kids k1 v1).
  { intros k1 v1. rewrite elem_leaves. unfold outside. split.
    - intros [(la1 & [= <- <- <-])|Hx]; [by left|right; by right].
    - intros [[-> ->]|[(? & [=])|Hx]]; [left; eauto|by right]. }
  assert (Hin' : forall k1 v1, k1 <> [dollar] -> (k1, v1) ∈ leaves (Art a' [] (Some (la', [dollar], z)) kids') <-> outside None kids' k1 v1).
  { intros k1 v1 Hk1. rewrite elem_leaves. unfold outside. split.
    - intros [(la1 & [= <- <- <-])|Hx]; [done|by right].
    - intros [(? & [=])|Hx]. by right. }
  assert (Hsd : forall k1 v1, outside None kids' k1 v1 -> k1 <> [dollar]).
  { intros k1 v1 [(? & [=])|(b & t & Hbt & Hx)] ->. apply rep_inv in Hr as (n & Hn & Hlt & He & Hpl & Hlf & Hk1 & Hk2 & Hk3 & Hst & Hkids).
    destruct (Hk3 _ _ _ eq_refl) as [_ Hd]. destruct (Hd Hne') as [_ Hd']. destruct (rep_leaves _ _ _ _ _ (Hkids _ _ Hbt) Hx) as [[y Hy] _].
    injection Hy as <- _. apply Hd', elem_of_list_fmap. by exists (dollar, t). }
  assert (Hsm : forall k1 v1, m !! k1 = Some v1 -> k1 <> []) by (intros k1 v1 Hm ->; by rewrite Hm in Hm0).
  split; [done|]. split; [|split; [by exists mx|]].
  - exists la', z, kids'. split; [by rewrite E1|]. split; [done|]. split; [by rewrite E1|]. intros k1 v1. split.
    + intros Ho. pose proof (Hsd _ _ Ho) as Hk1. apply Hin' in Ho; [|done]. apply Hl in Ho as [[-> ->]|[Hnk Ho]].
      * exists k. by rewrite lookup_insert.
      * apply Hin in Ho as [[-> _]|Ho]; [done|]. apply Hc in Ho as (k0 & -> & Hm). exists k0. split; [done|]. rewrite lookup_insert_ne; [done|]. by intros ->.
    + intros (k0 & -> & Hm). destruct (decide (k0 = k)) as [->|Hn].
      * rewrite lookup_insert in Hm. injection Hm as <-. apply Hin'; [done|]. apply Hl. by left.
      * rewrite lookup_insert_ne in Hm by done. pose proof (Hsm _ _ Hm). apply Hin'; [by destruct k0 as [|? [|? ?]]|]. apply Hl. right.
        split; [intros E; by apply app_inj_tail in E as [-> _]|]. apply Hin. right. apply Hc. eauto.
  - destruct r as [[[r1 old] fl] ob]. cbn [fst snd] in *. destruct ob; cbn [report] in Hrep.
    + apply Hin in Hrep as [[? _]|Hrep]; [done|]. apply Hc in Hrep as (k0 & E & Hm). by apply app_inj_tail in E as [<- _].
    + destruct Hrep as [-> Hrep]. split; [done|]. destruct (m !! k) as [w|] eqn:Hm; [right|by left]. split; [eauto|].
      destruct Hrep as [Hno|(k' & v' & Hx & Hnk & Hpk)].
      * destruct (Hno w). apply Hin. right. apply Hc. eauto.
      * unfold getTreeKey in Hpk. rewrite getKey_snoc in Hpk. apply Hin in Hx as [[-> _]|Hx].
        -- exfalso. apply valid_prefix_snoc with (k0 := []) in Hpk; [|done]. by apply prefix_nil_inv in Hpk.
        -- apply Hc in Hx as (k0 & -> & Hm1). exists k0. split; [eauto|]. split; [by intros ->|]. by apply valid_prefix_snoc.
Qed.

Lemma wp_const {A B} (k : A -> TM B) (r : A) s1 Q s : wp (bind (fun _ => (Ok r, s1)) k) Q s -> wp (k r) Q s1.
Proof. done. Qed.
Lemma stored_head k : valid_key k -> k <> [] -> exists b k', getTreeKey k = b :: k' /\ b <> dollar /\ b < 256.
Proof. destruct k as [|b k]; [done|]. intros Hv _. exists b, (k ++ [dollar]). apply Forall_cons in Hv as [[? ?] _]. done. Qed.

(** Insert below such a root (txn.go:96-150 with the leaf of the root not matching, 213-262, 292-318). *)
Lemma ghost_insert (s : st V) a m k v fuel : ghost (s_h s) a m -> valid_key k -> k <> [] -> t_tsize (s_t s) <> 0%N ->
  2 * length (getTreeKey k) + 2 <= fuel -> wp (erecursiveInsert fuel a (getTreeKey k) v 0) (gins_post s m k v) s.
Proof.
  intros Hg Hv Hkne Hts Hf. pose proof (ghost_nil _ _ _ Hg) as Hm0. pose proof (stored_tree k Hv) as Hsk.
  apply ghost_inv in Hg as (n & la & l & kids & Hn & Hl & Hlk & Hnl & Hr & Hne & Hnd & Hc & Hpl & His & He & Hd & Hkids & Hfull).
  destruct (stored_head _ Hv Hkne) as (b & k' & Ek & Hbd & Hb). set (key := getTreeKey k) in *.
  assert (Hpk : ([] ++ [] ++ [b]) `prefix_of` key) by (rewrite Ek; by exists k').
  destruct fuel as [|[|fuel]]; [lia|lia|]. cbn [erecursiveInsert]. apply wp_bind, wp_getT. rewrite (proj2 (N.eqb_neq _ _)) by done.
  apply wp_bind. eapply wp_loadN; [exact Hn|]. rewrite Hnl. apply wp_bind. eapply wp_loadL; [exact Hl|]. rewrite His, Hlk, leafMatches_nil by done.
  cbn [einsertInner]. apply wp_bind. eapply wp_loadN; [exact Hn|]. rewrite Hpl. cbn [Nat.ltb Nat.leb].
  apply wp_bind. apply (wp_byteAt _ _ b); [by rewrite Ek|].
  destruct (decide (b ∈ kids.*1)) as [Hbin|Hbo].
  - destruct (kid_cases _ _ Hbin) as (k1 & tc & k2 & ->). pose proof He as He0. rewrite ents_app in He0. cbn in He0.
    destruct (enc_set _ _ _ _ _ He0) as (idx & Hfc & _). apply wp_bind. eapply wp_lift; [exact Hfc|]. cbn beta iota.
    destruct (Hkids b tc) as (_ & _ & Hrc); [apply elem_mid; by left|].
    assert (Hndc : NoDup (fp tc)).
    { rewrite fp_eq, kfp_app, kfp_cons, NoDup_cons in Hnd. destruct Hnd as [_ Hnd]. rewrite !NoDup_app in Hnd. tauto. }
    assert (Hrun : wp (erecursiveInsert fuel (aroot tc) key v (0 + 1)) (ins_post s [b] tc key v) s).
    { change (0 + 1) with (length [b]). apply (proj1 (ins_main _)); try done. assert (length key = S (length k')) by (by rewrite Ek). change (length [b]) with 1. lia. }
    eapply wp_use; [exact Hrun|]. intros r s1 (tc' & E1 & E2 & Hr1 & Hnd1 & Hin1 & HU1 & Hl1 & Hrep1 & Hkp1). destruct r as [[[nc val] mut] old]. cbn [fst snd] in E1, E2, Hrep1. subst nc mut.
    assert (Hpost : ins_post (rnS s) [b] tc key v (aroot tc', val, true, old) (rnS s1)).
    { exists tc'. split; [done|]. split; [done|]. split; [by apply rep_rn|]. split; [done|]. split; [done|]. split; [by apply upd_rn|]. done. }
    pose proof (ins_descend_at (rnS s) [] a [] (Some (la, [dollar], l_val l)) k1 b tc k2 n idx key v (fun _ => (Ok (aroot tc', val, true, old), rnS s1)) Hr Hnd Hn Hfc Hpk Hpost) as Hw.
    apply (wp_const _ (aroot tc', val, true, old) (rnS s1)) in Hw. cbn beta iota in Hw |- *. eapply wp_rn; [|eapply wp_mono; [exact Hw|]].
    + cbn [orb]. comm.
    + intros r s' (a' & tc2 & Hat) s0 ->. eapply gins_done; [done|done|exact Hc|done| |exact Hat]. by destruct k1.
  - assert (Hb' : b ∉ (ents kids).*1) by (by rewrite ents_fst).
    apply wp_bind. eapply wp_lift; [apply findChild_None with (es := ents kids); [done|done|by apply alook_None]|]. cbn beta iota.
    eapply wp_use; [apply (makeLeaf_spec s key v [b] Hsk Hpk)|]. cbn beta. intros nl s1 (-> & Hnx1 & HU1 & HT2 & _).
    rewrite (proj2 (Nat.ltb_lt 0 (length key))) by (rewrite Ek; cbn; lia).
    destruct (ssorted_split (ents kids) b (enc_sorted _ _ He) Hb') as (l1 & l2 & El & H1 & H2).
    apply ents_split in El as (k1 & k2 & -> & <- & <-).
    eapply wp_rn; [|eapply wp_mono; [eapply (ins_addkid_at (rnS s) (rnS s1) [] a [] _ k1 k2 b key v Hr Hnd Hne H1 H2 Hb)|]]; try done.
    + comm. apply comm_eaddChild.
    + by apply upd_rn.
    + by apply rep_rn.
    + intros r s' (a' & lf' & T & Hlf & Hat) s0 ->. destruct (Hlf _ _ _ eq_refl) as (la' & ->). eapply gins_done; [done|done|exact Hc|done| |exact Hat]. by destruct k1.
Qed.

(** Insert into an empty tree whose Len is not zero: the empty root is taken for a leaf and its leaf is moved
    into a new root (txn.go:104-146). *)
Lemma ghost_first (s : st V) a k v fuel : phantom true (s_h s) a -> valid_key k -> k <> [] -> t_tsize (s_t s) <> 0%N ->
  wp (erecursiveInsert (S fuel) a (getTreeKey k) v 0) (gins_post s ∅ k v) s.
Proof.
  intros (n & la & l & Hn & Hlt & He & Hpl & Hch & Hlf & Hlalt & Hl & Hlk & Hne & Hpa & Hk4) Hv Hkne Hts. specialize (Hpa eq_refl).
  pose proof (stored_tree k Hv) as Hsk. destruct (stored_head _ Hv Hkne) as (b & k' & Ek & Hbd & Hb).
  assert (Hgk : getKey (getTreeKey k) = k) by (unfold getTreeKey; by rewrite getKey_snoc). set (key := getTreeKey k) in *.
  assert (Hpk : ([] ++ [] ++ [b]) `prefix_of` key) by (rewrite Ek; by exists k').
  cbn [erecursiveInsert]. apply wp_bind, wp_getT. rewrite (proj2 (N.eqb_neq _ _)) by done.
  apply wp_bind. eapply wp_loadN; [exact Hn|]. rewrite Hlf. apply wp_bind. eapply wp_loadL; [exact Hl|].
  assert (His : isLeafN n = true) by (unfold isLeafN; by rewrite (enc_nch _ _ He), Hlf).
  rewrite His, Hlk. cbv zeta. replace (Nat.eqb (length key) (length (@nil nat)) && bytes_eqb [] key) with false by (by rewrite Ek).
  eapply wp_use; [apply (makeLeaf_spec s key v [b] Hsk Hpk)|]. cbn beta. intros nl s1 (-> & Hnx1 & HU1 & HT2 & n2 & Hn2 & Hn2l).
  apply wp_bind. eapply wp_loadN; [exact Hn2|].
  eapply wp_use; [apply (ewriteNode_spec s1 a n); [eapply upd_node; [exact HU1|done|done|by intros []]|done|lia]|]. cbn beta.
  intros a' s2 (n' & Hn' & Hsame & Ha'lt & Ha' & HU2 & Hlv2). pose proof (upd_next _ _ _ HU2) as Hnx2.
  apply wp_bind. eapply wp_lift; [apply longestCommonPrefix_spec; cbn; lia|]. rewrite !drop_0.
  replace (lcp key []) with 0 by (rewrite Ek; done). change (maxPrefixLen `min` 0) with 0. cbn [Nat.add Nat.ltb Nat.leb].
  apply newInner_spec; [done|]. intros s3 n3 Hnx3 Hn3 HU3 Hlv3 He3 Hl3 Hs3 Hkd3 Hpl3 Hpp3 Hpt3.
  rewrite Hgk. change (getKey []) with (@nil nat). rewrite has_prefix_false by (by intros ?%prefix_nil_inv).
  rewrite (proj2 (has_prefix_true k [])) by apply prefix_nil.
  apply wp_bind, wp_bind. eapply wp_setNodeLeaf; [exact Hn3|]. set (n4 := set_leaf n3 _). set (s4 := stN s3 _ n4).
  apply wp_bind. apply (wp_byteAt _ _ b); [by rewrite Ek|].
  assert (HU02 : upd none s s2) by (eapply upd_trans; [exact HU1|exact HU2|by intros ? ? []]).
  assert (HU4 : upd none s2 s4) by (eapply upd_stN; [exact HU3|exact Hn3|by left]).
  assert (Hnx4 : nx s4 = nx s3) by done. pose proof (upd_nn _ _ _ HU02 HU4) as HU04.
  eapply wp_rn; [apply comm_eaddChild|].
  eapply wp_mono; [eapply (eaddChild_spec (rnS s4) (nx s2) n4 [] b (S (nx s)) [] (Some (la, [dollar], l_val l)))|]; cbn [app].
  - split_and!; [cbn; by rewrite lookup_insert|cbn; lia|eapply enc_same; [|exact He3]; done|done|]. split; [done|]. split; [cbn; lia|].
    exists (rnl l). split; [|cbn; by rewrite Hlk]. apply rnh_leaf. eapply upd_leaf; [exact HU04|exact Hl|done|by intros []].
  - constructor.
  - constructor.
  - done.
  - intros a5 s5 Hpost s0 ->. apply wp_ret.
    edestruct (inner_of_add (rnS s4) (rnS s0) (nx s2) n4 [(b, Art (S (nx s)) [] (Some (nx s, key, v)) [])]) as (lf5 & Hr5 & Hmv5 & Ha5 & HU5 & Hni5); [exact Hpost|..].
    + instantiate (1 := []). instantiate (1 := []). split_and!; [done|done|done| | |]; [intros x; change (x ∉ stale n3); rewrite Hs3; apply not_elem_of_nil|exists b, k'; by rewrite <- Ek|cbn; by rewrite Hkd3].
    + done.
    + intros la0 k0 v0 [= <- <- <-]. split; [exists []; split; [done|constructor]|]. split; [done|]. cbn. rewrite elem_of_list_singleton. congruence.
    + intros b0 t Hbt. apply elem_of_list_singleton in Hbt as [= -> ->]. split.
      * apply rep_rn; [done|]. eapply upd_rep; [exact (upd_nn _ _ _ HU2 HU4)|exact HT2|apply not_none].
      * rewrite fp_eq. cbn. rewrite !elem_of_cons, elem_of_nil. lia.
    + destruct lf5 as [[[la5 k5] v5]|]; [|done]. destruct Hmv5 as (-> & -> & Hla5). cbn in Hni5, Hla5.
      destruct (upd_t _ _ _ HU04) as [mx4 Et4]. destruct (upd_t _ _ _ HU5) as [mx5 Et5]. cbn in Et5, Et4.
      split; [done|]. split; [|split; [|split; [done|by left]]].
      * exists la5, (l_val l), [(b, Art (S (nx s)) [] (Some (nx s, key, v)) [])]. cbn [fst snd]. split; [exact Hr5|]. split; [done|]. split.
        -- rewrite !fp_eq. cbn. rewrite !elem_of_list_singleton in Hni5. assert (a5 <> la5) by (apply Hni5; lia). cbn in *. nodup_lia.
        -- intros k1 v1. rewrite insert_empty. split.
           ++ intros [(? & [=])|(b0 & t & Hbt & Hx)]. apply elem_of_list_singleton in Hbt as [= -> ->]. cbn in Hx. apply elem_of_list_singleton in Hx as [= -> ->].
              exists k. by rewrite lookup_singleton.
           ++ intros (k0 & -> & Hm). apply lookup_singleton_Some in Hm as [<- <-]. right. eexists _, _. split; [left|]. cbn. left.
      * exists mx5. cbn. rewrite Et5. unfold s4 in Et4. cbn in Et4. rewrite Et4. done.
Qed.

(** ** Delete *)
Lemma ghost_phantom (h : heap V) a la z n : rep (rnh h) [] (Art a [] (Some (la, [dollar], z)) []) -> NoDup (fp (Art a [] (Some (la, [dollar], z)) [])) ->
  h_nodes h !! a = Some n -> n_plen n = 0 -> phantom true h a.
Proof.
  intros Hr Hnd Hn Hpn. pose proof (rep_low _ _ _ _ _ _ n Hr Hn) as Hlow.
  apply rep_inv in Hr as (n0 & Hn0 & Hlt & He & Hpl & Hlf & Hk1 & Hk2 & Hk3 & Hst & Hkids). cbn in Hn0. assert (n0 = n) as -> by congruence.
  destruct Hlf as (Hnl & Hlalt & l & Hl & Hlk & Hlv). apply rnh_leaf_inv in Hl as (l0 & Hl & ->). cbn in Hlk. apply rnk_dollar in Hlk.
  assert (Hk4 : n_kind n = K4) by (destruct (n_kind n); cbn in Hlow; lia || done).
  exists n, la, l0. split_and!; try done.
  - intros i c Hc. assert (Hs : c ∈ stale n).
    { unfold stale. rewrite Hk4. cbn. rewrite (enc_nch _ _ He). apply elem_of_list_omap. exists (Some c). split; [|done]. eapply elem_of_list_lookup_2. exact Hc. }
    destruct (Hst c Hs) as (b & Hb & _). by apply elem_of_nil in Hb.
  - rewrite fp_eq in Hnd. cbn in Hnd. apply NoDup_cons in Hnd as [Hx _]. rewrite elem_of_list_singleton in Hx. done.
Qed.

(** The tree at a holds m, seen from outside *)
Definition whold (b : bool) (h : heap V) (a : addr) (m : kmap) : Prop := Top.holds b h a m \/ ghost h a m.

Lemma ghost_after (h : heap V) a la z kids n m : rep (rnh h) [] (Art a [] (Some (la, [dollar], z)) kids) -> NoDup (fp (Art a [] (Some (la, [dollar], z)) kids)) ->
  h_nodes h !! a = Some n -> n_plen n = 0 -> below_root kids m -> whold true h a m.
Proof.
  intros Hr Hnd Hn Hpn Hc. destruct (decide (kids = [])) as [->|Hne].
  - left. apply holds_empty; [|by eapply ghost_phantom]. apply map_eq. intros k. rewrite lookup_empty. destruct (m !! k) as [v|] eqn:E; [|done].
    destruct (proj2 (Hc (k ++ [dollar]) v)) as [(? & [=])|(b & t & Hx & _)]; [eauto|by apply elem_of_nil in Hx].
  - right. by exists la, z, kids.
Qed.

Lemma outside_split lf k1 b (t : art) k2 k v : outside lf (k1 ++ (b, t) :: k2) k v <-> outside lf (k1 ++ k2) k v \/ (k, v) ∈ leaves t.
Proof.
  unfold outside. split.
  - intros [Hl|(b' & t' & Hx & Hk)]; [by left; left|]. apply elem_mid in Hx as [[= -> ->]|Hx]; [by right|left; right; eauto].
  - intros [[Hl|(b' & t' & Hx & Hk)]|Hk]; [by left|right; exists b', t'; split; [apply elem_mid; by right|done]|right; exists b, t; split; [apply elem_mid; by left|done]].
Qed.

Lemma below_del k1 b (tc : art) k2 (o : option art) m k : below_root (k1 ++ (b, tc) :: k2) m -> (forall k3 v3, outside None (k1 ++ k2) k3 v3 -> k3 <> getTreeKey k) ->
  (forall k3 v3, match o with Some t' => (k3, v3) ∈ leaves t' | None => False end <-> (k3, v3) ∈ leaves tc /\ k3 <> getTreeKey k) ->
  below_root (match o with Some t' => k1 ++ (b, t') :: k2 | None => k1 ++ k2 end) (delete k m).
Proof.
  intros Hc Ho Hl k3 v3. transitivity (outside None (k1 ++ (b, tc) :: k2) k3 v3 /\ k3 <> getTreeKey k).
  - specialize (Ho k3 v3). specialize (Hl k3 v3). destruct o as [t'|]; rewrite !outside_split; tauto.
  - rewrite (Hc k3 v3). split.
    + intros [(k0 & -> & Hm) Hne]. exists k0. split; [done|]. rewrite lookup_delete_ne; [done|]. by intros ->.
    + intros (k0 & -> & [Hne Hm]%lookup_delete_Some). split; [eauto|]. intros E. by apply app_inj_tail in E as [-> _].
Qed.

Lemma below_cut k1 b (tc : art) k2 (o : option art) m q : below_root (k1 ++ (b, tc) :: k2) m -> (forall k3 v3, outside None (k1 ++ k2) k3 v3 -> ~ q `prefix_of` k3) ->
  (forall k3 v3, match o with Some t' => (k3, v3) ∈ leaves t' | None => False end <-> (k3, v3) ∈ leaves tc /\ ~ q `prefix_of` k3) ->
  below_root (match o with Some t' => k1 ++ (b, t') :: k2 | None => k1 ++ k2 end) (cut q m).
Proof.
  intros Hc Ho Hl k3 v3. transitivity (outside None (k1 ++ (b, tc) :: k2) k3 v3 /\ ~ q `prefix_of` k3).
  - specialize (Ho k3 v3). specialize (Hl k3 v3). destruct o as [t'|]; rewrite !outside_split; tauto.
  - rewrite (Hc k3 v3). split.
    + intros [(k0 & -> & Hm) Hne]. exists k0. split; [done|]. by apply cut_Some.
    + intros (k0 & -> & [Hm Hne]%cut_Some). split; [eauto|done].
Qed.

Definition gdel_post (s : st V) (m m' : kmap) (r : option addr * option ref * bool) (s' : st V) : Prop :=
  exists a', r.1.1 = Some a' /\ whold true (s_h s') a' m' /\ exists mx, s_t s' = set_t_max (s_t s) mx.

Lemma rn_leaf_val (s1 s2 : st V) la l : lv s1 !! la = Some l -> lv (rnS s2) !! la = lv (rnS s1) !! la -> exists l2, lv s2 !! la = Some l2 /\ l_val l2 = l_val l.
Proof.
  intros Hl E. cbn in E. rewrite !lookup_fmap, Hl in E. destruct (lv s2 !! la) as [l2|]; [|done]. exists l2. split; [done|]. cbn in E.
  injection E as _ E _ _. done.
Qed.
Lemma ghost_delete (s : st V) a m k w fuel : ghost (s_h s) a m -> m !! k = Some w -> roomy m -> length (getTreeKey k) + 1 <= fuel ->
  wp (erecursiveDelete fuel (Some a) (getTreeKey k) 0) (fun r s' => gdel_post s m (delete k m) r s' /\
    exists la l, r.1.2 = Some (RL la) /\ lv s' !! la = Some l /\ l_val l = w) s.
Proof.
  intros Hg Hm Hroom Hf. pose proof (ghost_nil _ _ _ Hg) as Hm0. pose proof (ghost_valid _ _ _ _ _ Hg Hm) as Hv. pose proof (stored_tree k Hv) as Hsk.
  assert (Hkne : k <> []) by (intros ->; by rewrite Hm in Hm0).
  apply ghost_inv in Hg as (n & la & l & kids & Hn & Hl & Hlk & Hnl & Hr & Hne & Hnd & Hc & Hpl & His & He & Hd & Hkids & Hfull).
  destruct (stored_head _ Hv Hkne) as (b & k' & Ek & Hbd & Hb).
  assert (Ho : outside None kids (getTreeKey k) w) by (apply Hc; eauto). destruct Ho as [(? & [=])|(b0 & tc & Hbt & Hin)].
  destruct (Hkids _ _ Hbt) as (_ & _ & Hrc). destruct (rep_leaves _ _ _ _ _ Hrc Hin) as [[y Hy] _]. rewrite Ek in Hy. injection Hy as <- _.
  set (key := getTreeKey k) in *.
  destruct fuel as [|fuel]; [lia|]. cbn [erecursiveDelete]. apply wp_bind. eapply wp_loadN; [exact Hn|]. rewrite His. cbn [andb]. rewrite Hnl.
  apply wp_bind, wp_bind. eapply wp_loadL; [exact Hl|]. apply wp_ret. rewrite Hlk, leafMatches_nil by done. rewrite Hpl. cbn [Nat.ltb Nat.leb].
  apply wp_bind, wp_ret. cbv zeta. apply wp_bind. apply (wp_byteAt _ _ b); [by rewrite Ek|].
  apply elem_of_list_split in Hbt as (k1 & k2 & ->). pose proof He as He0. rewrite ents_app in He0. cbn in He0.
  destruct (enc_set _ _ _ _ _ He0) as (idx & Hfc & _). apply wp_bind. eapply wp_lift; [exact Hfc|]. cbn beta iota.
  assert (Hndc : NoDup (fp tc)).
  { rewrite fp_eq, kfp_app, kfp_cons, NoDup_cons in Hnd. destruct Hnd as [_ Hnd]. rewrite !NoDup_app in Hnd. tauto. }
  assert (Hroomc : room tc).
  { intros q. destruct (Hroom q) as (b1 & Hb1 & Hno). exists b1. split; [done|]. intros k1' v1 Hk1. 
    destruct (proj1 (Hc k1' v1)) as (k0 & -> & Hk0); [apply outside_split; by right|]. apply Hno. eauto. }
  assert (Hone : forall k1' v1, outside None (k1 ++ k2) k1' v1 -> k1' <> key).
  { intros k1' v1 [(? & [=])|(b1 & t1 & Hbt1 & Hx)] ->. destruct (Hkids b1 t1) as (_ & _ & Hr1); [apply elem_mid; by right|].
    destruct (rep_leaves _ _ _ _ _ Hr1 Hx) as [[y' Hy'] _]. rewrite Ek in Hy'. injection Hy' as <- _.
    pose proof (rep_sorted _ _ _ _ _ _ Hr) as Hsor. rewrite fmap_app, fmap_cons in Hsor. apply NoDup_mid in Hsor. rewrite <- fmap_app in Hsor.
    apply Hsor. apply elem_of_list_fmap. by exists (b, t1). }
  eapply wp_use; [change (0 + 0 + 1) with (length [b]); eapply (del_main fuel s [b] tc key w); try done; try by apply room_roomk|].
  { assert (length key = S (length k')) by (by rewrite Ek). cbn [length]. lia. }
  intros [[newChild val] mut] s1 (ot' & Er & HU1 & (la1 & l1 & Ev & Hla1 & Hl1 & Hlkv) & Hot). cbn [fst snd] in *. subst newChild val.
  rewrite orb_true_r. cbn [is_some].
  assert (Hw : l_val l1 = w) by (eapply rep_leaves_fun; eauto). destruct (upd_t _ _ _ HU1) as [mx1 Et1].
  destruct ot' as [tc'|]; cbn [fmap option_fmap option_map].
  - destruct Hot as ((Hr1 & Hnd1 & Hin1) & Hlv & _ & _).
    assert (Htr : del_tree (rnS s) ([] ++ [] ++ [b]) tc tc' (rnS s1)) by (split; [by apply rep_rn|done]).
    apply wp_bind. eapply wp_rn; [comm|]. eapply wp_mono; [eapply (set_kid (rnS s) (rnS s1) [] a [] _ k1 b tc tc' k2 n idx Hr Hnd Hn Hfc (upd_rn _ _ _ HU1) Htr)|].
    intros a' s' ((n2 & Hn2 & Hnch) & HU2 & Hlv2 & (Hr2 & Hnd2 & _) & _) s2 ->. apply wp_bind. eapply wp_loadN; [exact Hn2|].
    rewrite Hnch, (enc_nch _ _ He). unfold ents. rewrite fmap_length, u8_small by done.
    destruct (Nat.eqb_spec (length (k1 ++ (b, tc) :: k2)) 0) as [E0|_]; [destruct k1; done|]. apply wp_ret.
    destruct (upd_t _ _ _ HU2) as [mx2 Et2]. destruct (rn_leaf_val s1 s2 la1 l1 Hl1) as (l2 & Hl2 & Hv2); [by rewrite Hlv2|]. split.
    + exists a'. split; [done|]. split; [|by exists mx2]. right. exists la, (l_val l), (k1 ++ (b, tc') :: k2). split; [exact Hr2|]. split; [by destruct k1|]. split; [done|].
      by apply (below_del k1 b tc k2 (Some tc') m k Hc Hone Hlv).
    + exists la1, l2. split; [done|]. split; [done|congruence].
  - apply wp_bind. eapply wp_rn; [comm; apply comm_eremoveChild|].
    eapply wp_mono; [eapply (drop_kid (rnS s) (rnS s1) [] a [] _ k1 b tc k2 n idx Hr Hnd Hn Hfc (upd_rn _ _ _ HU1)); by intros (_ & _ & ?)|].
    intros a' s' (HU2 & Hlv2 & _ & n2 & lf' & Hn2 & [Hnch Hpn] & Hlf2 & Hmv & Htr) s2 ->.
    destruct lf' as [[[la' k3] v3]|]; [|done]. destruct Hmv as (-> & -> & _). destruct Htr as (Hr2 & Hnd2 & _); [by left|].
    destruct (upd_t _ _ _ HU2) as [mx2 Et2].
    destruct (rn_leaf_val s1 s2 la1 l1 Hl1) as (l2 & Hl2 & Hv2).
    { rewrite fp_eq in Hnd. rewrite kfp_app, kfp_cons, app_assoc, NoDup_cons in Hnd. destruct Hnd as [Hani Hnd]. apply Hlv2.
      - rewrite fp_eq, kfp_app, kfp_cons. mem.
      - rewrite kfp_app, app_assoc. intros Hx. assert (la1 ∉ fp tc); [|done]. eapply mid_notin; [exact Hnd|]. exact Hx.
      - intros ->. apply Hani. mem.
      - by apply (rep_fp _ _ _ _ Hrc). }
    apply wp_bind. eapply wp_loadN; [exact Hn2|].
    assert (Hpost : gdel_post s m (delete k m) (Some a', Some (RL la1), mut) s2 /\
      exists la0 l0, (Some a', Some (RL la1), mut).1.2 = Some (RL la0) /\ lv s2 !! la0 = Some l0 /\ l_val l0 = w).
    { split; [|exists la1, l2; split; [done|]; split; [done|congruence]]. exists a'. split; [done|]. split; [|by exists mx2].
      eapply ghost_after; [exact Hr2|exact Hnd2|exact Hn2|exact Hpn|].
      apply (below_del k1 b tc k2 None m k Hc Hone). intros k4 v4. split; [done|]. intros [Hx Hy]. by apply Hot in Hx. }
    destruct Hlf2 as (Hnl2 & _). rewrite Hnl2. cbn [is_some]. by destruct (Nat.eqb _ _); apply wp_ret.
Qed.

Lemma ghost_absent (s : st V) a m k fuel : ghost (s_h s) a m -> valid_key k -> m !! k = None -> roomy m -> length (getTreeKey k) + 1 <= fuel ->
  pp (erecursiveDelete fuel (Some a) (getTreeKey k) 0) (fun r s' => r.1.2 = None /\
    exists q, (nearM m k -> q `prefix_of` (k ++ [dollar])) /\
      match r.1.1 with
      | Some _ => gdel_post s m (cut q m) r s'
      | None => cut q m = ∅ /\ exists mx, s_t s' = set_t_max (s_t s) mx
      end) s.
Proof.
  intros Hg Hv Hm Hroom Hf. pose proof (ghost_nil _ _ _ Hg) as Hm0. pose proof (stored_tree k Hv) as Hsk.
  apply ghost_inv in Hg as (n & la & l & kids & Hn & Hl & Hlk & Hnl & Hr & Hne & Hnd & Hc & Hpl & His & He & Hd & Hkids & Hfull).
  assert (Hhd : exists b k', getTreeKey k = b :: k' /\ b < 256).
  { destruct k as [|b k']; [exists dollar, []; split; [done|unfold dollar; lia]|]. exists b, (k' ++ [dollar]). apply Forall_cons in Hv as [[? ?] _]. done. }
  destruct Hhd as (b & k' & Ek & Hb). set (key := getTreeKey k) in *.
  destruct fuel as [|fuel]; [lia|]. cbn [erecursiveDelete]. apply pp_bind, pp_wp. eapply wp_loadN; [exact Hn|]. rewrite His. cbn [andb]. rewrite Hnl.
  apply pp_bind, pp_bind, pp_wp. eapply wp_loadL; [exact Hl|]. apply pp_ret. rewrite Hlk, leafMatches_nil by done. rewrite Hpl. cbn [Nat.ltb Nat.leb].
  apply pp_bind, pp_ret. cbv zeta. apply pp_bind, pp_wp. apply (wp_byteAt _ _ b); [by rewrite Ek|].
  destruct (decide (b ∈ kids.*1)) as [Hbin|Hbo].
  2:{ assert (Hb' : b ∉ (ents kids).*1) by (by rewrite ents_fst).
      apply pp_bind, pp_wp. eapply wp_lift; [apply findChild_None with (es := ents kids); [done|done|by apply alook_None]|]. cbn beta iota.
      apply pp_ret. split; [done|]. exists []. split; [intros _; apply prefix_nil|]. cbn. split; [|by exists (t_max (s_t s)); destruct (s_t s)].
      apply map_eq. intros k1. rewrite lookup_empty. destruct (cut [] m !! k1) eqn:E; [|done]. apply cut_Some in E as [_ E]. by destruct (E (prefix_nil _)). }
  apply kid_cases in Hbin as (k1 & tc & k2 & ->). pose proof He as He0. rewrite ents_app in He0. cbn in He0.
  destruct (enc_set _ _ _ _ _ He0) as (idx & Hfc & _). apply pp_bind, pp_wp. eapply wp_lift; [exact Hfc|]. cbn beta iota.
  destruct (Hkids b tc) as (Hbd & _ & Hrc); [apply elem_mid; by left|].
  assert (Hndc : NoDup (fp tc)).
  { rewrite fp_eq, kfp_app, kfp_cons, NoDup_cons in Hnd. destruct Hnd as [_ Hnd]. rewrite !NoDup_app in Hnd. tauto. }
  assert (Hkm : forall k3 v3, (k3, v3) ∈ leaves tc -> exists k0, k3 = k0 ++ [dollar] /\ m !! k0 = Some v3).
  { intros k3 v3 Hk3. apply Hc. apply outside_split. by right. }
  assert (Hroomc : room tc).
  { intros q. destruct (Hroom q) as (b1 & Hb1 & Hno). exists b1. split; [done|]. intros k1' v1 Hk1. destruct (Hkm _ _ Hk1) as (k0 & -> & Hk0). apply Hno. eauto. }
  assert (Hni : forall v, (key, v) ∉ leaves tc).
  { intros v Hx. destruct (Hkm _ _ Hx) as (k0 & E & Hk0). apply app_inj_tail in E as [-> _]. by rewrite Hk0 in Hm. }
  assert (Hone : forall q k3 v3, outside None (k1 ++ k2) k3 v3 -> [b] `prefix_of` q \/ q = key -> ~ q `prefix_of` k3).
  { intros q k3 v3 Ho Hq Hx. assert (Hk3 : exists k0, k3 = k0 ++ [dollar] /\ m !! k0 = Some v3) by (apply Hc, outside_split; by left).
    destruct Ho as [(? & [=])|(b1 & t1 & Hbt1 & Hx1)]. destruct (Hkids b1 t1) as (_ & _ & Hr1); [apply elem_mid; by right|].
    destruct (rep_leaves _ _ _ _ _ Hr1 Hx1) as [[y' Hy'] Hs3]. destruct Hq as [Hq| ->].
    - pose proof (transitivity Hq Hx) as [y2 Hy2]. rewrite Hy' in Hy2. injection Hy2 as -> _.
      pose proof (rep_sorted _ _ _ _ _ _ Hr) as Hsor. rewrite fmap_app, fmap_cons in Hsor. apply NoDup_mid in Hsor. rewrite <- fmap_app in Hsor.
      apply Hsor. apply elem_of_list_fmap. by exists (b, t1).
    - assert (E : key = k3) by by apply stored_prefix_free. destruct Hk3 as (k0 & -> & Hk0). apply app_inj_tail in E as [-> _]. by rewrite Hk0 in Hm. }
  change (0 + 0 + 1) with (length [b]).
  eapply pp_use; [eapply (abs_main fuel s [b] tc key); try done|].
  { assert (length key = S (length k')) by (by rewrite Ek). cbn [length]. lia. }
  intros [[newChild val] mut] s1 (Ev & ot' & q & Er & HU1 & Hq & Hqn & Hot). cbn [fst snd] in *. subst newChild val.
  rewrite orb_false_r. cbn [is_some]. destruct (upd_t _ _ _ HU1) as [mx1 Et1].
  assert (Hnear : nearM m k -> q `prefix_of` k ++ [dollar]).
  { intros Hnr. apply Hqn; [|rewrite Ek; by exists k']. intros k3 v3 Hk3. destruct (Hkm _ _ Hk3) as (k0 & -> & Hk0). apply Hnr. eauto. }
  pose proof (fun k3 v3 Ho => Hone q k3 v3 Ho Hq) as Hone'.
  destruct ot' as [tc'|]; cbn [fmap option_fmap option_map].
  - destruct Hot as ((Hr1 & Hnd1 & Hin1) & Hlv).
    assert (Htr : del_tree (rnS s) ([] ++ [] ++ [b]) tc tc' (rnS s1)) by (split; [by apply rep_rn|done]).
    pose proof (below_cut k1 b tc k2 (Some tc') m q Hc Hone' Hlv) as Hc'. cbn in Hc'.
    assert (Hpost : forall a' s2, rep (rnh (s_h s2)) [] (Art a' [] (Some (la, [dollar], l_val l)) (k1 ++ (b, tc') :: k2)) ->
      NoDup (fp (Art a' [] (Some (la, [dollar], l_val l)) (k1 ++ (b, tc') :: k2))) -> (exists mx, s_t s2 = set_t_max (s_t s) mx) ->
      (Some a', @None ref, mut).1.2 = None /\ exists q0, (nearM m k -> q0 `prefix_of` k ++ [dollar]) /\
      match (Some a', @None ref, mut).1.1 with Some _ => gdel_post s m (cut q0 m) (Some a', None, mut) s2
        | None => cut q0 m = ∅ /\ exists mx, s_t s2 = set_t_max (s_t s) mx end).
    { intros a' s2 F1 F2 F3. split; [done|]. exists q. split; [done|]. cbn. exists a'. split; [done|]. split; [|done]. right. exists la, (l_val l), (k1 ++ (b, tc') :: k2).
      split; [exact F1|]. split; [by destruct k1|done]. }
    destruct (opt_addr_eqb (Some (aroot tc')) (Some (aroot tc))) eqn:Eq; cbn [negb].
    + unfold opt_addr_eqb in Eq. case_bool_decide as Eq2; [|done]. clear Eq. injection Eq2 as Eq.
      destruct (same_kid (rnS s) (rnS s1) [] a [] (Some (la, [dollar], l_val l)) k1 b tc tc' k2 Hr Hnd (upd_rn _ _ _ HU1) Htr Eq) as (Hn2 & HU2 & Hr2 & Hnd2 & _).
      apply pp_bind, pp_ret. apply pp_bind, pp_wp. eapply wp_loadN; [cbn in Hn2; rewrite Hn2; exact Hn|].
      rewrite (enc_nch _ _ He). unfold ents. rewrite fmap_length, u8_small by done.
      destruct (Nat.eqb_spec (length (k1 ++ (b, tc) :: k2)) 0) as [E0|_]; [destruct k1; done|]. apply pp_ret. apply Hpost; [exact Hr2|exact Hnd2|by exists mx1].
    + apply pp_bind, pp_wp. eapply wp_rn; [comm|]. eapply wp_mono; [eapply (set_kid (rnS s) (rnS s1) [] a [] _ k1 b tc tc' k2 n idx Hr Hnd Hn Hfc (upd_rn _ _ _ HU1) Htr)|].
      intros a' s' ((n2 & Hn2 & Hnch) & HU2 & Hlv2 & (Hr2 & Hnd2 & _) & _) s2 ->. apply pp_bind, pp_wp. eapply wp_loadN; [exact Hn2|].
      rewrite Hnch, (enc_nch _ _ He). unfold ents. rewrite fmap_length, u8_small by done.
      destruct (Nat.eqb_spec (length (k1 ++ (b, tc) :: k2)) 0) as [E0|_]; [destruct k1; done|]. apply pp_ret.
      apply Hpost; [exact Hr2|exact Hnd2|]. destruct (upd_t _ _ _ HU2) as [mx2 Et2]. by exists mx2.
  - change (negb (opt_addr_eqb None (Some (aroot tc)))) with true. apply pp_bind, pp_wp. eapply wp_rn; [comm; apply comm_eremoveChild|].
    eapply wp_mono; [eapply (drop_kid (rnS s) (rnS s1) [] a [] _ k1 b tc k2 n idx Hr Hnd Hn Hfc (upd_rn _ _ _ HU1)); by intros (_ & _ & ?)|].
    intros a' s' (HU2 & Hlv2 & _ & n2 & lf' & Hn2 & [Hnch Hpn] & Hlf2 & Hmv & Htr) s2 ->.
    destruct lf' as [[[la' k3] v3]|]; [|done]. destruct Hmv as (-> & -> & _). destruct Htr as (Hr2 & Hnd2 & _); [by left|].
    destruct (upd_t _ _ _ HU2) as [mx2 Et2]. apply pp_bind, pp_wp. eapply wp_loadN; [exact Hn2|].
    assert (Hpost : gdel_post s m (cut q m) (Some a', None, mut) s2).
    { exists a'. split; [done|]. split; [|by exists mx2]. eapply ghost_after; [exact Hr2|exact Hnd2|exact Hn2|exact Hpn|].
      apply (below_cut k1 b tc k2 None m q Hc Hone'). intros k4 v4. split; [done|]. intros [Hx Hy]. by apply Hot in Hx. }
    destruct Hlf2 as (Hnl2 & _). rewrite Hnl2. cbn [is_some]. destruct (Nat.eqb _ _); apply pp_ret; (split; [done|]); exists q; done.
Qed.

(** ** Get *)
Lemma leafMatches_rn k key : key <> [] -> key <> [dollar] -> leafMatches (rnk k) key = leafMatches k key.
Proof.
  intros H1 H2. destruct (leafMatches k key) eqn:E.
  - apply leafMatches_true in E as ->. rewrite rnk_id by done. by apply leafMatches_true.
  - apply leafMatches_false. apply leafMatches_false in E. intros E2. apply E. rewrite <- (rnk_rnk k), E2. by apply rnk_id.
Qed.
Lemma scan_rn h key chs : key <> [] -> key <> [dollar] -> scanChildren (rnh h) key chs = scanChildren h key chs.
Proof.
  intros H1 H2. induction chs as [|[c|] chs IH]; [done| |done]. cbn. destruct (h_nodes h !! c) as [n|]; [|done]. destruct (n_leaf n) as [la|]; [|done].
  rewrite lookup_fmap. destruct (h_leaves h !! la) as [l|]; [|done]. cbn. rewrite leafMatches_rn by done. by rewrite IH.
Qed.
Lemma own_rn h key n : key <> [] -> key <> [dollar] -> ownLeaf (rnh h) key n = ownLeaf h key n.
Proof.
  intros H1 H2. unfold ownLeaf. destruct (n_leaf n) as [la|]; [|done]. cbn. rewrite lookup_fmap. destruct (h_leaves h !! la) as [l|]; [|done]. cbn.
  by rewrite leafMatches_rn.
Qed.
Lemma search_rn h key fuel a d : key <> [] -> key <> [dollar] -> search fuel (rnh h) a key d = search fuel h a key d.
Proof.
  intros H1 H2. revert a d. induction fuel as [|fuel IH]; intros a d; [done|]. cbn [search h_nodes rnh]. destruct (h_nodes h !! a) as [n|]; [|done].
  rewrite own_rn by done. assert (Hex : searchExit (rnh h) key a n = searchExit h key a n) by (unfold searchExit; by rewrite own_rn, scan_rn). rewrite Hex.
  destruct (if isLeafN n then ownLeaf h key n else Ok None) as [[la|]| |]; try done. cbn [obind].
  destruct (if 0 <? n_plen n then checkPrefix (n_partial n) (n_plen n) key d else Ok 0) as [pl| |]; try done. cbn [obind].
  destruct (_ && _); [done|]. destruct (key !! _); [|done]. destruct (findChild n _) as [[[ca|] i]| |]; try done. cbn [obind]. apply IH.
Qed.
Lemma ghost_get h a m k : ghost h a m -> is_bytes k -> getFrom h a k = Ok (ref_get m k).
Proof.
  intros Hg Hk. pose proof (ghost_nil _ _ _ Hg) as Hm0. pose proof (getTreeKey_bytes k Hk) as Hkb.
  apply ghost_inv in Hg as (n & la & l & kids & Hn & Hl & Hlk & Hnl & Hr & Hne & Hnd & Hc & Hpl & His & He & Hd & Hkids & Hfull).
  unfold getFrom, search_fuel. destruct (decide (k = [])) as [->|Hkne].
  - change (getTreeKey []) with [dollar]. change (length [dollar] + 2) with 3. cbn [search]. rewrite Hn, His. cbn [obind]. rewrite Hpl. cbn [Nat.ltb Nat.leb obind andb].
    change ([dollar] !! (0 + 0)) with (Some dollar). cbn iota. assert (Hb' : dollar ∉ (ents kids).*1) by (by rewrite ents_fst).
    rewrite (findChild_None n (ents kids)); [|done|unfold dollar; lia|by apply alook_None]. cbn [obind]. unfold searchExit, ownLeaf. rewrite Hnl, Hl, Hlk. cbn [obind].
    change (leafMatches [] [dollar]) with false. cbn iota. rewrite scanChildren_none.
    { cbn [obind]. unfold ref_get. by rewrite Hm0. }
    intros c Hcin. apply rep_inv in Hr as (n0 & Hn0 & _ & _ & _ & _ & _ & _ & _ & Hst & _). cbn in Hn0. assert (n0 = n) as -> by congruence.
    assert (Hw : forall P Q : bytes -> Prop, (forall k, P k -> Q k) -> leafok h c P -> leafok h c Q).
    { intros P Q HPQ (F1 & nc & F2 & F3). split; [done|]. exists nc. split; [done|]. destruct (n_leaf nc); [|done]. destruct F3 as (F3 & lc & F4 & F5). split; [done|]. eauto. }
    destruct (enc_children_elem _ _ _ He Hcin) as [Hi|Hi].
    + apply elem_of_list_fmap in Hi as ([b c'] & -> & Hi). apply elem_ents in Hi as (t & <- & Hbt) || apply elem_ents in Hi as (t & Hbt & <-). destruct (Hkids _ _ Hbt) as (Hb & _ & Hrt).
      eapply (Hw (fun k => [b] `prefix_of` k)); [|by apply rep_leafok]. intros k0 [y ->] E. by injection E as -> _.
    + destruct (Hst c Hi) as (b & Hb & Hok). apply rnh_leafok in Hok. eapply Hw; [|exact Hok]. intros k0 Hx ->. cbn in Hx. by apply prefix_nil_inv in Hx.
  - assert (H1 : getTreeKey k <> []) by (unfold getTreeKey; by destruct k). assert (H2 : getTreeKey k <> [dollar]) by (unfold getTreeKey; by destruct k as [|? [|? ?]]).
    destruct (search_spec (rnh h) (getTreeKey k) _ Hkb (length (getTreeKey k) + 2) [] Hr) as (r & Hs & Hres); [cbn; lia|cbn; lia|].
    cbn [length aroot] in Hs. rewrite search_rn in Hs by done. rewrite Hs. cbn [obind]. unfold ref_get.
    assert (Hin : forall v, (getTreeKey k, v) ∈ leaves (Art a [] (Some (la, [dollar], l_val l)) kids) <-> m !! k = Some v).
    { intros v. rewrite elem_leaves. transitivity (outside None kids (getTreeKey k) v).
      - unfold outside. split; (intros [(? & E)|?]; [|by right]); [|done]. injection E as _ E _. by symmetry in E.
      - rewrite (Hc _ _). split; [|eauto]. intros (k0 & E & Hm). by apply app_inj_tail in E as [-> _]. }
    destruct r as [la0|a'].
    + destruct Hres as (l0 & El & Hi). apply rnh_leaf_inv in El as (l1 & -> & ->). apply Hin in Hi. rewrite Hi. done.
    + destruct Hres as (_ & _ & Hno). destruct (m !! k) as [v|] eqn:Hm; [|done]. exfalso. by apply (Hno v), Hin.
Qed.
End Ghost.
