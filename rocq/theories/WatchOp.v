(** One update of a tracking transaction and the channel of a stored key: the update records the channel,
    or it is an update of another key and the channel stays with the leaf of the key. *)
From Verif Require Export Fires WorldRef.
From stdpp Require Import list.
Local Open Scope nat_scope.

(** [watched h root k c]: the lookup of k in the tree with this root ends in a leaf whose channel is c. *)
Definition watched {V} (h : heap V) (root : addr) (k : bytes) (c : chan) : Prop :=
  exists la l, search (search_fuel (getTreeKey k)) h root (getTreeKey k) 0 = Ok (Found la) /\ h_leaves h !! la = Some l /\ l_ch l = Some c.
Definition op_key {V} (o : op V) : bytes := match o with OInsert k _ | ODelete k | ODeletePrefix k => k end.

Section Mark2.
Context {V : Type} `{GoZero V}.
Notation kmap := (gmap (list nat) V).
Notation W := (V * bool)%type.
Lemma er_mark la (h : heap V) : er_h (markH la h) = markH la (er_h h).
Proof.
  unfold er_h, markH. cbn. f_equal. apply map_eq. intros x. rewrite lookup_fmap, !map_lookup_imap, lookup_fmap. by destruct (h_leaves h !! x).
Qed.
Definition markM (k : bytes) (m : kmap) : gmap (list nat) W := map_imap (fun k' v => Some (v, bool_decide (k' = k))) m.
Lemma markM_lookup k m k' : markM k m !! k' = (fun v => (v, bool_decide (k' = k))) <$> m !! k'.
Proof. unfold markM. rewrite map_lookup_imap. by destruct (m !! k'). Qed.
Lemma markM_is k m k' : is_Some (markM k m !! k') <-> is_Some (m !! k').
Proof. rewrite markM_lookup. by rewrite fmap_is_Some. Qed.
Lemma markM_size k m : size (markM k m) = size m.
Proof.
  rewrite <- (map_size_fmap fst (markM k m)). f_equal. apply map_eq. intros k'. rewrite lookup_fmap, markM_lookup. by destruct (m !! k').
Qed.
Lemma markM_empty k m : markM k m = ∅ <-> m = ∅.
Proof. rewrite <- !map_size_empty_iff. by rewrite markM_size. Qed.
Lemma markM_shadowed k m k' : shadowed (markM k m) k' <-> shadowed m k'.
Proof. unfold shadowed. by setoid_rewrite markM_is. Qed.
Lemma markM_room k m q : room_at m q -> room_at (markM k m) q.
Proof. intros (b & Hb & Hq). exists b. split; [done|]. intros k'. rewrite markM_is. apply Hq. Qed.
Lemma markM_deletable k m k1 : deletable m k1 -> deletable (markM k m) k1.
Proof.
  intros [H1 H2]. split.
  - intros q c k' Hq Hk' Hne Hqc. apply markM_room. apply (H1 q c k'); [done|by apply markM_is in Hk'|done|done].
  - intros q r Hq Hn Hall. apply markM_room. apply H2; [done|done|]. intros k' Hk'. apply Hall. by apply markM_is.
Qed.
Lemma markM_delete k m k' : delete k' (markM k m) = markM k (delete k' m).
Proof.
  apply map_eq. intros k1. rewrite markM_lookup. destruct (decide (k1 = k')) as [->|]; [by rewrite !lookup_delete|]. rewrite !lookup_delete_ne by done. by rewrite markM_lookup.
Qed.
Lemma mark_contents (h : heap V) t m la k v : rep h [] t -> contents t m -> celled t la (getTreeKey k) v -> contents (markA la t) (markM k m).
Proof.
  intros Hr Hc Hla k' [v' b]. assert (Hx : forall la' k0 v0, celled t la' (k0 ++ [dollar]) v0 -> (la' = la <-> k0 = k)).
  { intros la' k0 v0 Hce. split.
    - intros ->. destruct (celled_cell _ _ _ _ _ _ Hr Hce) as (_ & l & Hl & Hk & _). destruct (celled_cell _ _ _ _ _ _ Hr Hla) as (_ & l2 & Hl2 & Hk2 & _).
      unfold getTreeKey in Hk2. rewrite Hl in Hl2. injection Hl2 as <-. rewrite Hk in Hk2. by apply app_inj_tail in Hk2 as [? _].
    - intros ->. by destruct (celled_unique _ _ _ _ _ _ _ Hr Hce Hla). }
  split.
  - intros (la' & Hce)%leaves_celled. apply celled_mark in Hce as [Hce ->]. pose proof (celled_leaves _ _ _ _ Hce) as Hin. apply Hc in Hin as (k0 & -> & Hm).
    exists k0. split; [done|]. rewrite markM_lookup, Hm. cbn. do 2 f_equal. apply bool_decide_ext. symmetry. by eapply Hx.
  - intros (k0 & -> & Hm). rewrite markM_lookup in Hm. destruct (m !! k0) as [v0|] eqn:Em; [|done]. cbn in Hm. injection Hm as <- <-.
    assert (Hin : (k0 ++ [dollar], v0) ∈ leaves t) by (apply Hc; eauto). apply leaves_celled in Hin as (la' & Hce).
    eapply celled_leaves. apply celled_mark. split; [exact Hce|]. apply bool_decide_ext. symmetry. by eapply Hx.
Qed.
End Mark2.

Section WatchOp.
Context {V : Type} `{GoZero V}.
Notation kmap := (gmap (list nat) V).
Notation W := (V * bool)%type.

(** The watched key is stored, in a represented tree. *)
Lemma watched_tree b (h : heap V) a m k c : holds b (er_h h) a m -> is_bytes k -> watched h a k c ->
  exists t la l v, rep h [] t /\ rep (er_h h) [] t /\ NoDup (fp t) /\ a = aroot t /\ contents t m /\ celled t la (getTreeKey k) v /\ h_leaves h !! la = Some l /\ l_ch l = Some c /\ m !! k = Some v.
Proof.
  intros Hh Hk (la & l & Es & Hl & Hc). pose proof (getTreeKey_bytes k Hk) as Hkb. destruct Hh as [-> Hp|t Hr Hnd -> Hct].
  - exfalso. unfold search_fuel in Es. rewrite <- er_search in Es. replace (length (getTreeKey k) + 2) with (S (length (getTreeKey k) + 1)) in Es by lia.
    rewrite (phantom_search b) in Es; [done|done|done|]. by destruct k.
  - pose proof (rep_uner _ _ _ Hr) as Hr'. destruct (found_celled _ _ _ _ Hkb Hr' Es) as (v & Hce). exists t, la, l, v. split_and!; try done.
    pose proof (celled_leaves _ _ _ _ Hce) as Hin. apply Hct in Hin as (k0 & E & Hm). by apply app_inj_tail in E as [<- _].
Qed.
Lemma watched_valid b (h : heap V) a m k c : holds b (er_h h) a m -> is_bytes k -> watched h a k c -> valid_key k.
Proof. intros Hh Hk Hw. destruct (watched_tree _ _ _ _ _ _ Hh Hk Hw) as (t & la & l & v & _ & _ & _ & _ & _ & _ & _ & _ & Hm). by eapply (holds_valid (D := valid_dom)). Qed.

Lemma watch_same n (h : heap V) x m d f o d' k c r s' : xok n (er_h h) x (m, d, f) -> tame_op m d o d' -> is_bytes k -> t_track x = true ->
  watched h (t_root x) k c -> op_key o = k -> txnOp o (mkS h x) = (Ok r, s') -> c ∈ t_chs (s_t s').
Proof.
  intros (y & (Hh & Hsz & Htsz & _) & _) Ho Hk Ht Hw <- E. cbn in Hh.
  pose proof (watched_valid _ _ _ _ _ _ Hh Hk Hw) as Hv. destruct (watched_tree _ _ _ _ _ _ Hh Hk Hw) as (t & la & l & v0 & Hr & Hre & Hnd & Ea & Hct & Hce & Hl & Hc & Hm).
  assert (Hx : cp c (txnOp o) (mkS h x)); [|unfold cp in Hx; by rewrite E in Hx].
  destruct o as [k1 v1|k1|k1]; [| |done]; cbn [op_key] in *; unfold txnOp.
  - apply cp_l; [|intros [??]; apply pv_ret]. unfold txnInsert. apply cp_getT. cbn [s_t]. rewrite Ea. apply cp_l.
    + apply (proj1 (cp_insert c (getTreeKey k1) v1 la l (mkS h x) Ht Hl Hc (stored_tree (D := valid_dom) _ Hv) ltac:(cbn in *; rewrite Htsz; intros E0;
        apply (contents_ne _ _ _ _ Hr Hct), map_size_empty_iff; lia) _) [] t v0 Hr Hnd Hce). unfold insert_fuel. cbn [length]. lia.
    + intros [[[newRoot oldVal] mu] old] s. apply pr_getT. apply pr_bind; [|intros; apply pv_ret]. destruct old; by apply pr_putT.
  - apply cp_l; [|intros [??]; apply pv_ret]. unfold txnDelete. apply cp_getT. cbn [s_t]. rewrite Ea. apply cp_l.
    + apply (cp_delete c (getTreeKey k1) la l (mkS h x) Ht Hl Hc (stored_tree (D := valid_dom) _ Hv) _ [] t v0 Hr Hce). unfold delete_fuel. cbn [length]. lia.
    + intros [[newRoot lo] mu] s. apply pv_bind; [destruct newRoot; [|apply pv_installEmptyRoot]|].
      * intros s1. apply pr_getT. by apply pr_putT.
      * intros [] s1. destruct lo as [lo|]; [|apply pv_ret]. apply pr_getT. apply pv_bind; [apply pv_trackN|]. intros [] s2. apply pr_getT. apply pr_bind; [by apply pr_putT|].
        intros [] s3 _. destruct lo; [apply pv_ret|]. apply pv_bind; [apply pv_loadL|]. intros; apply pv_ret.
Qed.

(** the rest of the argument for an update of another key, in the marked memory *)
Lemma watch_marked n (h : heap V) x m d f o oW d' k c r s' : xok n (er_h h) x (m, d, f) -> is_bytes k -> t_track x = true ->
  watched h (t_root x) k c -> op_key o <> k -> (m = ∅ -> (exists k v, o = OInsert k v) -> f = true) -> (N.of_nat (S n) < 2 ^ 64)%N ->
  op_key oW = op_key o ->
  (forall k, tame_op (markM k m) d oW d') -> ((exists k v, oW = OInsert k v) -> exists k v, o = OInsert k v) ->
  (forall v, m !! k = Some v -> ref_op oW (markM k m) !! k = Some (v, true)) ->
  (forall sW rW sW', txnOp oW sW = (Ok rW, sW') -> exists r, txnOp o (fs fst sW) = (Ok r, fs fst sW')) ->
  kv (J snd c) (txnOp oW) ->
  txnOp o (mkS h x) = (Ok r, s') -> c ∈ t_chs (s_t s') \/ watched (s_h s') (t_root (s_t s')) k c.
Proof.
  intros Hx Hk Ht Hw Hne Hf Hn Ek Htame Hins Href Hproj HJ E. pose proof Hx as (y & (Hh & Hsz & Htsz & Hy0) & Hy & Hyn). cbn in Hh.
  destruct (watched_tree _ _ _ _ _ _ Hh Hk Hw) as (t & la & l & v0 & Hr & Hre & Hnd & Ea & Hct & Hce & Hl & Hc & Hm).
  assert (HxW : xok n (er_h (markH la h)) x (markM k m, d, f)).
  { exists y. cbn [fst snd] in *. rewrite markM_size. split; [|done]. split_and!.
    - cbn. rewrite er_mark. eapply (holds_tree _ _ _ _ (markA la t)); [by apply rep_mark|by rewrite mark_fp|by rewrite mark_root|]. by eapply (mark_contents (er_h h)).
    - by rewrite markM_size.
    - by rewrite markM_size.
    - by rewrite markM_empty. }
  destruct (op_txn n (markH la h) x (markM k m) d f oW d' HxW (Htame k)) as (rW & sW' & EW & HxW' & _).
  { rewrite markM_empty. intros E0 Hi. apply Hf; [done|]. by apply Hins. }
  { done. }
  destruct (Hproj _ _ _ EW) as (r' & E'). assert (Ef : fs fst (mkS (markH la h) x) = mkS h x) by (unfold fs; cbn; by rewrite fh_mark).
  rewrite Ef, E in E'. assert (s' = fs fst sW') as -> by congruence. clear E' E.
  pose proof (HJ (mkS (markH la h) x)) as HJ'. unfold kp in HJ'. rewrite EW in HJ'. destruct HJ' as [_ HJ'].
  { split; [done|]. right. intros x0 l0 Hx0 Htag. cbn [s_h] in Hx0. rewrite markH_lookup in Hx0. destruct (h_leaves h !! x0) as [l1|] eqn:El1; [|done].
    cbn in Hx0. injection Hx0 as <-. cbn in Htag. apply bool_decide_eq_true in Htag as ->. cbn. congruence. }
  destruct HJ' as [HJ'|HJ']; [by left|right]. destruct HxW' as (y' & (Hh' & _) & _). cbn [fst snd] in Hh'. cbn in Hh'.
  pose proof (Href _ Hm) as Hlk.
  destruct (holds_ne _ _ _ _ Hh') as (t' & Hr' & _ & Ea' & Hct'); [intros E0; by rewrite E0 in Hlk|].
  assert (Hin : (getTreeKey k, (v0, true)) ∈ leaves t') by (apply Hct'; by exists k). apply leaves_celled in Hin as (la' & Hce').
  apply rep_uner in Hr'. destruct (celled_cell _ _ _ _ _ _ Hr' Hce') as (_ & l' & Hl' & _ & Hv').
  exists la', (fl fst l'). split; [|split].
  - cbn [fs s_h s_t]. rewrite v_search, Ea'. apply (search_found _ _ _ _ _ (getTreeKey_bytes k Hk) _ [] Hr' Hce'). unfold search_fuel. cbn [length]. lia.
  - cbn [fs s_h]. by rewrite fl_lookup, Hl'.
  - cbn. apply (HJ' _ _ Hl'). by rewrite Hv'.
Qed.

Lemma watch_other n (h : heap V) x m d f o d' k c r s' : xok n (er_h h) x (m, d, f) -> tame_op m d o d' -> is_bytes k -> t_track x = true ->
  watched h (t_root x) k c -> op_key o <> k -> (m = ∅ -> (exists k v, o = OInsert k v) -> f = true) -> (N.of_nat (S n) < 2 ^ 64)%N ->
  txnOp o (mkS h x) = (Ok r, s') -> c ∈ t_chs (s_t s') \/ watched (s_h s') (t_root (s_t s')) k c.
Proof.
  intros Hx Ho Hk Ht Hw Hne Hf Hn E.
  destruct o as [k1 v1|k1|k1]; [| |done]; cbn [op_key] in Hne.
  - eapply (watch_marked n h x m d f (OInsert k1 v1) (OInsert k1 (v1, false)) d'); try done.
    + intros k'. cbn in *. by rewrite markM_shadowed.
    + intros _. eauto.
    + intros v Hm. cbn. rewrite lookup_insert_ne by done. by rewrite markM_lookup, Hm; cbn; rewrite bool_decide_true.
    + intros sW rW sW' EW. unfold txnOp, bind in EW |- *. pose proof (vs_txnInsert (W := W) (V := V) (H := H) (H0 := zero_tag) fst eq_refl k1 (v1, false) sW) as Hvs. cbn [fst] in Hvs. rewrite Hvs.
      destruct (txnInsert k1 (v1, false) sW) as [[p| |] s1]; [|done..]. cbn. unfold ret in *. injection EW as _ <-. eauto.
    + unfold txnOp. intros s. apply kv_bind; [by apply J_insert|]. intros; apply kv_ret.
  - destruct Ho as (Hst & Hroom & -> & Hd). eapply (watch_marked n h x m d f (ODelete k1) (ODelete k1) d); try done.
    + intros k'. split; [by apply markM_is|]. split; [by apply markM_deletable|]. split; [done|]. rewrite markM_delete. by rewrite markM_empty.
    + intros (? & ? & [=]).
    + intros v Hm. cbn. rewrite lookup_delete_ne by done. by rewrite markM_lookup, Hm; cbn; rewrite bool_decide_true.
    + intros sW rW sW' EW. unfold txnOp, bind in EW |- *. pose proof (vs_txnDelete (W := W) (V := V) (H := H) (H0 := zero_tag) fst eq_refl k1 sW) as Hvs. rewrite Hvs.
      destruct (txnDelete k1 sW) as [[p| |] s1]; [|done..]. cbn. unfold ret in *. injection EW as _ <-. eauto.
    + unfold txnOp. intros s. apply kv_bind; [by apply J_delete|]. intros; apply kv_ret.
Qed.
End WatchOp.
