(** One update of a tracking transaction and a channel of a node on the path of P: the update records the
    channel, or its key does not extend P and the channel stays on the path of P. *)
From Verif Require Export NodePath MarkSim WatchOp.
From stdpp Require Import list.
Local Open Scope nat_scope.

Section NodeOp.
Context {V : Type} `{GoZero V} (c : chan).
Notation kmap := (gmap (list nat) V).
Notation TM := (M (st V)).

(** The root, or a node of the tree at a prefix of P, has the channel c. *)
Definition on_path (h : heap V) (root : addr) (m : kmap) (P : bytes) : Prop :=
  UNh root c h \/ exists t x q, rep h [] t /\ NoDup (fp t) /\ root = aroot t /\ contents t m /\ noded [] t x q /\ q `prefix_of` P /\ UNh x c h.

Lemma rep_ec (h : heap V) p t : rep h p t <-> rep (ec_h c h) p t.
Proof.
  split; intros Hr; apply rep_er in Hr; [rewrite <- (er_ec c) in Hr|rewrite er_ec in Hr]; by apply rep_uner in Hr.
Qed.
Lemma UN_ec x (h : heap V) : UNh x c h -> exists n, h_nodes (ec_h c h) !! x = Some n /\ n_ch n = Some c.
Proof. intros (_ & n & Hn & Hc). exists (ec_n c n). rewrite ec_lookup, Hn. split; [done|]. cbn. unfold keepc. by rewrite bool_decide_true. Qed.
Lemma ec_UN x (h : heap V) n : x < h_next h -> h_nodes (ec_h c h) !! x = Some n -> n_ch n = Some c -> UNh x c h.
Proof.
  intros Hlt Hn Hc. rewrite ec_lookup in Hn. destruct (h_nodes h !! x) as [n0|] eqn:E; [|done]. injection Hn as <-. cbn in Hc. unfold keepc in Hc.
  case_bool_decide; [|done]. split; [done|]. eauto.
Qed.

(** ** The channel-free updates *)
Lemma etxnInsert_kept (s : st V) t k v : rep (s_h s) [] t -> NoDup (fp t) -> t_root (s_t s) = aroot t -> valid_key k -> t_tsize (s_t s) <> 0%N ->
  wp (etxnInsert k v) (fun _ s' => exists t', rep (s_h s') [] t' /\ NoDup (fp t') /\ t_root (s_t s') = aroot t' /\
    (forall k' v', (k', v') ∈ leaves t' <-> (k' = getTreeKey k /\ v' = v) \/ (k' <> getTreeKey k /\ (k', v') ∈ leaves t)) /\ kept (getTreeKey k) (s_h s) (s_h s') [] t t') s.
Proof.
  intros Hr Hnd Hroot Hv Hts. unfold etxnInsert, insert_fuel. apply wp_bind, wp_getT. rewrite Hroot.
  eapply wp_use; [apply (proj1 (ins_main _) s [] t); [exact Hr|exact Hnd|by apply stored_tree|apply prefix_nil|exact Hts|cbn [length]; lia]|].
  intros [[[r1 old] fl] ob] s' (t' & E1 & E2 & Hr' & Hnd' & Hfp & HU & Hl & Hrep & Hkp & _). cbn [fst snd] in E1, E2, Hrep. subst r1 fl. cbn beta iota.
  apply wp_bind, wp_getT. apply wp_bind, wp_putT, wp_ret. exists t'. destruct ob; done.
Qed.
Lemma etxnDelete_kept (s : st V) t k w m x q : rep (s_h s) [] t -> NoDup (fp t) -> t_root (s_t s) = aroot t -> contents t m -> m !! k = Some w -> deletable m k ->
  noded [] t x q -> ~ q `prefix_of` getTreeKey k ->
  wp (etxnDelete k) (fun _ s' => exists t', rep (s_h s') [] t' /\ NoDup (fp t') /\ t_root (s_t s') = aroot t' /\
    (forall k' v', (k', v') ∈ leaves t' <-> (k', v') ∈ leaves t /\ k' <> getTreeKey k) /\ kept (getTreeKey k) (s_h s) (s_h s') [] t t') s.
Proof.
  intros Hr Hnd Hroot Hc Hm Hroom Hno Hq. unfold etxnDelete, delete_fuel. apply wp_bind, wp_getT. rewrite Hroot.
  assert (Hin : (getTreeKey k, w) ∈ leaves t) by (apply Hc; eauto).
  pose proof (rep_leaves _ _ _ _ _ Hr Hin) as [_ Hst].
  eapply wp_use; [apply (del_main _ s [] t _ w); [exact Hr|exact Hnd|exact Hst|exact Hin|by eapply contents_roomk|cbn [length]; lia]|].
  intros [[nr lr] fl] s' (ot' & E1 & HU & (la & l & E2 & Hla & Hl & Hlin) & Hot). cbn [fst snd] in E1, E2. subst nr lr. cbn beta iota.
  destruct ot' as [t'|]; cbn [fmap option_fmap option_map].
  - destruct Hot as ((Hr' & Hnd' & Hfp') & Hl' & Hkp & _). apply wp_bind, wp_bind, wp_getT. apply wp_putT.
    apply wp_bind, wp_getT. apply wp_bind, wp_getT. apply wp_bind, wp_putT. apply wp_bind. eapply wp_loadL; [exact Hl|]. apply wp_ret. exists t'. done.
  - exfalso. destruct (noded_leaf _ _ _ _ _ Hr Hno) as (k' & v' & Hk' & Hqk). apply Hot in Hk' as ->. done.
Qed.

(** ** Recording *)
Notation pvt := (pv (fun _ _ => True)).
Lemma txnInsert_rec k v s : okp (recursiveInsert (insert_fuel (getTreeKey k)) (t_root (s_t s)) (getTreeKey k) v 0) s (fun _ => rec c) -> okp (txnInsert k v) s (fun _ => rec c).
Proof.
  intros Hx. unfold txnInsert. apply okp_getT. apply okp_tail; [exact Hx|].
  intros [[[newRoot oldVal] mu] old] s1. apply pr_getT. apply pr_bind; [|intros; apply pv_ret]. destruct old; by apply pr_putT.
Qed.
Lemma txnDelete_rec k (s : st V) : okp (recursiveDelete (delete_fuel (getTreeKey k)) (Some (t_root (s_t s))) (getTreeKey k) 0) s (fun r (s' : st V) => is_Some r.1.2 -> rec c s') ->
  okp (txnDelete k) s (fun r (s' : st V) => r.2 = true -> rec c s').
Proof.
  intros Hx. unfold txnDelete. apply okp_getT. apply okp_bind. eapply okp_mono; [exact Hx|]. intros [[newRoot lo] mu] s1 Hs1. cbn [fst snd] in Hs1.
  destruct lo as [lo|].
  - eapply okp_mono; [apply okp_pvt; [|apply Hs1; by eexists]|done].
    intros s0. apply pv_bind; [destruct newRoot; [|apply pv_installEmptyRoot]|].
    + intros s2. apply pr_getT. by apply pr_putT.
    + intros [] s2. apply pr_getT. apply pv_bind; [apply pv_trackN|]. intros [] s3. apply pr_getT. apply pr_bind; [by apply pr_putT|].
      intros [] s4 _. destruct lo; [apply pv_ret|]. apply pv_bind; [apply pv_loadL|]. intros; apply pv_ret.
  - apply okp_any. intros ??. by apply okp_ret.
Qed.

Lemma path_op n (h : heap V) x m d f o d' P r s' : xok n (er_h h) x (m, d, f) -> tame_op m d o d' -> t_track x = true -> c < h_nextch h ->
  on_path h (t_root x) m P -> (m = ∅ -> (exists k v, o = OInsert k v) -> f = true) -> (N.of_nat (S n) < 2 ^ 64)%N -> txnOp o (mkS h x) = (Ok r, s') ->
  c ∈ t_chs (s_t s') \/ (~ P `prefix_of` getTreeKey (op_key o) /\ on_path (s_h s') (t_root (s_t s')) (ref_op o m) P).
Proof.
  intros Hx Ho Ht Hlive Hp Hf Hn E.
  destruct (op_txn n h x m d f o d' Hx Ho Hf Hn) as (r' & s1 & E1 & _ & Hres). rewrite E in E1. injection E1 as <- <-.
  pose proof Hx as (y & (Hh & Hsz & Htsz & _) & _). cbn [fst snd] in *.
  assert (Hv : valid_key (op_key o)).
  { destruct o as [k1 v1|k1|k1]; cbn in Ho |- *; [tauto| |done]. destruct Ho as ([w Hw] & _). by eapply (holds_valid (D := valid_dom)). }
  pose proof (stored_tree (D := valid_dom) _ Hv) as Hst.
  assert (Hrec : forall x0, NT c x0 (mkS h x) ->
    (forall fuel v, okp (recursiveInsert fuel (t_root x) (getTreeKey (op_key o)) v 0) (mkS h x) (fun _ => rec c)) ->
    (forall fuel, okp (recursiveDelete fuel (Some (t_root x)) (getTreeKey (op_key o)) 0) (mkS h x) (fun r (s' : st V) => is_Some r.1.2 -> rec c s')) -> c ∈ t_chs (s_t s')).
  { intros x0 HN HI HD. destruct o as [k1 v1|k1|k1]; [| |done]; cbn [op_key] in *; unfold txnOp, bind in E.
    - destruct (txnInsert k1 v1 (mkS h x)) as [[r1| |] s1] eqn:E1; [|done..]. unfold ret in E. assert (s1 = s') as -> by (by injection E). by apply (txnInsert_rec k1 v1 (mkS h x) (HI _ _) _ _ E1).
    - destruct (txnDelete k1 (mkS h x)) as [[r1| |] s1] eqn:E1; [|done..]. unfold ret in E. injection E as <- <-. apply (txnDelete_rec k1 (mkS h x) (HD _) _ _ E1).
      destruct Ho as ([w Hw] & _). cbn in Hres. unfold ref_get in Hres. rewrite Hw in Hres. by injection Hres. }
  destruct Hp as [Hroot|(t & x0 & q & Hr & Hnd & Ea & Hct & Hno & Hq & HUN)].
  { left. apply (Hrec (t_root x)); [by split; [|right]|intros; apply root_insert; by split; [|right]|intros; apply root_delete; by split; [|right]]. }
  assert (HN : NT c x0 (mkS h x)) by (by split; [|right]).
  assert (Hts : t_tsize x <> 0%N) by (cbn in Htsz; rewrite Htsz; intros E0; apply (contents_ne _ _ _ _ Hr Hct), map_size_empty_iff; lia).
  destruct (decide (q `prefix_of` getTreeKey (op_key o))) as [Hqk|Hqk].
  { left. apply (Hrec x0); [done| |].
    - intros fuel v. rewrite Ea. by eapply (proj1 (path_insert c _ v x0 (mkS h x) HN Hst Hts fuel) []).
    - intros fuel. rewrite Ea. by eapply (path_delete c _ x0 (mkS h x) HN Hst fuel []). }
  destruct (UN_ec _ _ HUN) as (n0 & Hn0 & Hc0). pose proof Hr as Hr0. apply rep_ec in Hr0.
  assert (Hfin : forall t', rep (ec_h c (s_h s')) [] t' -> NoDup (fp t') -> t_root (s_t s') = aroot t' -> contents t' (ref_op o m) ->
    kept (getTreeKey (op_key o)) (ec_h c h) (ec_h c (s_h s')) [] t t' -> ~ P `prefix_of` getTreeKey (op_key o) /\ on_path (s_h s') (t_root (s_t s')) (ref_op o m) P).
  { intros t' Hr' Hnd' Ea' Hct' Hk. split; [intros HP; apply Hqk; by transitivity P|]. destruct (Hk _ _ _ Hno Hqk Hn0) as (x' & q' & n' & Hno' & Hq' & Hn' & Hc').
    right. exists t', x', q'. apply rep_ec in Hr'. split_and!; try done; [by transitivity q|]. eapply ec_UN; [|exact Hn'|congruence]. eapply rep_fp; [exact Hr'|]. by eapply noded_fp. }
  destruct o as [k1 v1|k1|k1]; [| |done]; cbn [op_key] in *; unfold txnOp, bind in E.
  - destruct (txnInsert k1 v1 (mkS h x)) as [[r1| |] s1] eqn:E1; [|done..]. unfold ret in E. assert (s1 = s') as -> by (by injection E).
    destruct (msim_txnInsert c k1 v1 (mkS h x)) as [_ Hm]; [done|]. rewrite E1 in Hm. cbn [fst snd omapo] in Hm. destruct Hm as [Hm|Hm]; [by left|right].
    pose proof (etxnInsert_kept (ec c (mkS h x)) t k1 v1 Hr0 Hnd Ea Hv Hts) as Hw. unfold wp in Hw. rewrite <- Hm in Hw. cbn in Hw.
    destruct Hw as (t' & Hr' & Hnd' & Ea' & Hl & Hk). apply (Hfin t'); try done. by eapply contents_insert.
  - destruct (txnDelete k1 (mkS h x)) as [[r1| |] s1] eqn:E1; [|done..]. unfold ret in E. assert (s1 = s') as -> by (by injection E).
    destruct (msim_txnDelete c k1 (mkS h x)) as [_ Hm]; [done|]. rewrite E1 in Hm. cbn [fst snd omapo] in Hm. destruct Hm as [Hm|Hm]; [by left|right].
    destruct Ho as ([w Hw] & Hroom & _).
    pose proof (etxnDelete_kept (ec c (mkS h x)) t k1 w m x0 q Hr0 Hnd Ea Hct Hw Hroom Hno Hqk) as Hwp. unfold wp in Hwp. rewrite <- Hm in Hwp. cbn in Hwp.
    destruct Hwp as (t' & Hr' & Hnd' & Ea' & Hl & Hk). apply (Hfin t'); try done. by eapply contents_delete.
Qed.
End NodeOp.
