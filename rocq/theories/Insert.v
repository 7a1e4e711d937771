(** Insert refines the insertion of a pair into the represented map. *)
From Verif Require Export Wp.
From stdpp Require Export list.
Local Open Scope nat_scope.

(** ** Keys *)
Lemma lcp_drop m x y : m <= lcp x y -> lcp (drop m x) (drop m y) = lcp x y - m.
Proof.
  revert x y. induction m as [|m IH]; intros x y Hm; [rewrite !drop_0; lia|].
  destruct x as [|a x], y as [|b y]; cbn in *; [lia..|]. destruct (Nat.eqb a b); [|lia]. rewrite IH by lia. lia.
Qed.
Lemma diverge (x y : bytes) : ~ x `prefix_of` y -> ~ y `prefix_of` x ->
  exists q a b x' y', x = q ++ a :: x' /\ y = q ++ b :: y' /\ a <> b /\ lcp x y = length q.
Proof.
  revert y. induction x as [|a x IH]; intros y H1 H2; [destruct H1; apply prefix_nil|].
  destruct y as [|b y]; [destruct H2; apply prefix_nil|]. cbn. destruct (Nat.eqb_spec a b) as [->|Hne].
  - destruct (IH y) as (q & a & b' & x' & y' & -> & -> & Hab & E).
    + intros Hp. apply H1. by apply prefix_cons.
    + intros Hp. apply H2. by apply prefix_cons.
    + exists (b :: q), a, b', x', y'. cbn. by rewrite E.
  - exists [], a, b, x, y. done.
Qed.
Section Keys.
Context {D : KeyDom}.
Lemma stored_bytes k : stored k -> is_bytes k.
Proof.
  intros (k0 & -> & Hv). unfold is_bytes. apply Forall_app. split; [|repeat constructor; unfold dollar; lia].
  by apply kd_bytes.
Qed.
Lemma stored_dec q a x : stored (q ++ a :: x) ->
  opn q /\ a < 256 /\ ((a = dollar /\ x = [] /\ getKey (q ++ a :: x) = q) \/
              (x <> [] /\ exists x0, x = x0 ++ [dollar] /\ getKey (q ++ a :: x) = q ++ a :: x0)).
Proof.
  intros Hs. split; [by exists a, x|]. split.
  { apply stored_bytes in Hs. unfold is_bytes in Hs. rewrite Forall_app, Forall_cons in Hs. tauto. }
  destruct Hs as (k0 & E & Hv). destruct x as [|y x _] using rev_ind.
  - apply app_inj_tail in E as [-> ->]. left. split_and!; [done..|apply getKey_snoc].
  - replace (q ++ a :: x ++ [y]) with ((q ++ a :: x) ++ [y]) in E |- * by (by rewrite <- app_assoc).
    apply app_inj_tail in E as [<- ->]. right. split; [by destruct x|].
    exists x. split; [done|]. by rewrite getKey_snoc.
Qed.
Lemma stored_lookup k i b : stored k -> k !! i = Some b -> b < 256.
Proof. intros Hs Hl. apply stored_bytes in Hs. unfold is_bytes in Hs. rewrite Forall_forall in Hs. by eapply Hs, elem_of_list_lookup_2. Qed.
(** a stored key goes on after a path *)
Lemma stored_ext k q : stored k -> opn q -> q `prefix_of` k -> exists b x, k = q ++ b :: x.
Proof.
  intros Hs Hq [[|b x] ->]; [|eauto]. rewrite app_nil_r in Hs. by destruct (stored_not_opn _ Hs).
Qed.
(** two different stored keys diverge *)
Lemma stored_diverge p k k' : stored k -> stored k' -> k <> k' -> p `prefix_of` k -> p `prefix_of` k' ->
  exists q a b x y, k = p ++ q ++ a :: x /\ k' = p ++ q ++ b :: y /\ a <> b /\ lcp (drop (length p) k) (drop (length p) k') = length q.
Proof.
  intros Hs Hs' Hne [x ->] [y ->]. rewrite !drop_app.
  destruct (diverge x y) as (q & a & b & x' & y' & -> & -> & Hab & E).
  - intros Hp. apply Hne. apply stored_prefix_free; [done..|]. by apply prefix_app.
  - intros Hp. apply Hne. symmetry. apply stored_prefix_free; [done..|]. by apply prefix_app.
  - exists q, a, b, x', y'. done.
Qed.
End Keys.
(** for the keys without '$': *)
Definition nodollar (p : bytes) : Prop := Forall (fun b => b <> dollar) p.
Lemma nodollar_app p q : nodollar (p ++ q) <-> nodollar p /\ nodollar q.
Proof. apply Forall_app. Qed.
Lemma opn_nodollar q : opn (D := valid_dom) q -> nodollar q.
Proof.
  intros (b & x & k0 & E & Hv). destruct (b :: x) as [|c x' _] eqn:Ex using rev_ind; [done|]. rewrite app_assoc in E.
  apply app_inj_tail in E as [<- _]. cbn in Hv. unfold valid_key in Hv. apply Forall_app in Hv as [Hv _].
  eapply Forall_impl; [exact Hv|]. cbn. tauto.
Qed.
Lemma stored_valid_dec q a x : stored (D := valid_dom) (q ++ a :: x) ->
  nodollar q /\ a < 256 /\ ((a = dollar /\ x = [] /\ getKey (q ++ a :: x) = q) \/
              (a <> dollar /\ exists x0, x = x0 ++ [dollar] /\ getKey (q ++ a :: x) = q ++ a :: x0)).
Proof.
  intros Hs. destruct (stored_dec _ _ _ Hs) as (Ho & Ha & Hc). split; [by apply opn_nodollar|]. split; [done|].
  destruct Hc as [Hc|(Hne & x0 & -> & Hg)]; [by left|]. right. split; [|eauto].
  assert (Ho' : opn (D := valid_dom) (q ++ [a])).
  { destruct (x0 ++ [dollar]) as [|b x] eqn:E; [by destruct x0|]. exists b, x. by rewrite <- app_assoc. }
  apply opn_nodollar, nodollar_app in Ho' as [_ Ho']. unfold nodollar in Ho'. by rewrite Forall_singleton in Ho'.
Qed.
Lemma stored_not_nodollar k : stored (D := valid_dom) k -> ~ nodollar k.
Proof. intros (k0 & -> & _) Hn. unfold nodollar in Hn. rewrite Forall_app, Forall_singleton in Hn. tauto. Qed.
Lemma longestCommonPrefix_spec k k' d : d <= length k -> d <= length k' ->
  longestCommonPrefix k k' d = Ok (lcp (drop d k) (drop d k')).
Proof.
  intros H1 H2. unfold longestCommonPrefix. pose proof (lcp_le_l (drop d k) (drop d k')) as Hl.
  pose proof (lcp_le_r (drop d k) (drop d k')) as Hr. rewrite drop_length in Hl, Hr.
  destruct (Nat.ltb_spec (length k) (length k')); (rewrite cmp_loop_0; [f_equal; lia|rewrite drop_length; lia|lia]).
Qed.

Section Insert.
Context {V : Type} `{GoZero V} {D : KeyDom}.
Notation art := (art V).
Notation TM := (M (st V)).
Notation nd s := (h_nodes (s_h s)).
Notation lv s := (h_leaves (s_h s)).
Notation nx s := (h_next (s_h s)).

(** ** Reading below a node whose header is being changed *)
Lemma minimum_step (h : heap V) p pre lf kids a n fuel : h_nodes h !! a = Some n -> enc n (ents kids) -> leafrep h (n_leaf n) lf ->
  kids <> [] -> isLeafN n = false ->
  (forall la k v, lf = Some (la, k, v) -> k = p ++ pre ++ [dollar]) ->
  (forall b t, (b, t) ∈ kids -> rep h (p ++ pre ++ [b]) t /\ length (fp t) <= fuel) ->
  exists la l b x, minimum (S fuel) h (Some a) = Ok (Some la) /\ h_leaves h !! la = Some l /\ l_key l = p ++ pre ++ b :: x.
Proof.
  intros Hn He Hlf Hne Hil Hk Hkids. cbn [minimum]. rewrite Hn, Hil. destruct lf as [[[la k] v]|].
  - destruct Hlf as (-> & _ & l & Hl & Hlk & _). exists la, l, dollar, []. rewrite <- (Hk _ _ _ eq_refl). done.
  - cbn in Hlf. rewrite Hlf. destruct kids as [|[b t] kids]; [done|].
    rewrite (enc_minChild n b (aroot t) (ents kids)) by exact He. cbn [obind].
    destruct (Hkids b t ltac:(left)) as [Hr Hf].
    destruct (minimum_node fuel h _ t Hr Hf) as (la & l & k & v & L & E & H1 & H2 & H3 & H4).
    assert (Hp : (p ++ pre ++ [b]) `prefix_of` k).
    { apply (rep_leaves h _ t k v Hr). rewrite H4. left. }
    destruct Hp as [x ->]. exists la, l, b, x. rewrite <- !app_assoc in H2. done.
Qed.
Lemma fp_kid_le a pre lf (kids : list (nat * art)) b t : (b, t) ∈ kids -> S (length (fp t)) <= length (fp (Art a pre lf kids)).
Proof.
  intros Hbt. apply elem_of_list_split in Hbt as (k1 & k2 & ->). rewrite fp_eq, kfp_app, kfp_cons. cbn. rewrite !app_length. lia.
Qed.

Lemma prefixMismatch_spec (h : heap V) p a pre lf kids n key : rep h p (Art a pre lf kids) -> NoDup (fp (Art a pre lf kids)) ->
  h_nodes h !! a = Some n -> kids <> [] -> stored key -> p `prefix_of` key ->
  exists d, prefixMismatch h a n key (length p) = Ok d /\
    ((length pre <= d /\ (p ++ pre) `prefix_of` key) \/ (d < length pre /\ d = lcp pre (drop (length p) key))).
Proof.
  intros Hr Hnd Hn Hne Hsk [rest ->]. pose proof Hr as Hr0. pose proof (fp_bound _ _ _ Hr Hnd) as Hfb.
  apply rep_inv in Hr as (n' & Hn' & Hlt & He & Hpl & Hlf & Hk1 & Hk2 & Hk3 & Hst & Hkids).
  assert (n' = n) as -> by congruence. destruct (Hk1 Hne) as (Hpn & Hpt & Hnd2).
  rewrite drop_app. unfold prefixMismatch. rewrite Hpn, app_length.
  replace (length p + length rest - length p) with (length rest) by lia.
  set (L := lcp pre rest). set (m := maxPrefixLen `min` length pre) in *.
  assert (HL : L < length rest).
  { pose proof (lcp_le_r pre rest). destruct (decide (L = length rest)) as [E|]; [|unfold L in *; lia]. exfalso.
    unfold L in E. rewrite lcp_comm in E. apply lcp_full in E as [y ->].
    apply (stored_not_opn _ Hsk). rewrite app_assoc in Hnd2. by apply opn_app in Hnd2. }
  assert (Hm : m `min` lcp (n_partial n) rest = m `min` L).
  { unfold L. rewrite <- !lcp_take_l', Hpt. unfold m. rewrite <- take_take, (firstn_all pre). done. }
  assert (Hmm : m <= maxPrefixLen) by (unfold m; lia).
  rewrite cmp_loop_0; [|lia|rewrite app_length; lia]. rewrite drop_app. cbn [obind].
  replace ((m `min` length rest) `min` lcp (n_partial n) rest) with (m `min` L) by lia.
  destruct (Nat.ltb_spec (m `min` L) (m `min` length rest)) as [Hlt1|Hge1].
  { exists (m `min` L). split; [done|]. right. unfold m in *. lia. }
  assert (HmL : m <= L) by lia.
  destruct (Nat.ltb_spec maxPrefixLen (length pre)) as [Hgt|Hle].
  2:{ exists (m `min` L). split; [done|]. left. split; [unfold m; lia|]. apply prefix_app.
      pose proof (lcp_le_l pre rest). apply lcp_full. unfold L, m in *. lia. }
  unfold walk_fuel. destruct (minimum_step h p pre lf kids a n (h_next h)) as (la & l & b & x & E & Hl & Hlk); try done.
  { rewrite (rep_isLeaf _ _ _ _ _ _ _ Hr0 Hn). by rewrite bool_decide_false. }
  { intros la k v El. apply (Hk3 _ _ _ El). done. }
  { intros b t Hbt. split; [by apply Hkids|]. pose proof (fp_kid_le a pre lf kids b t Hbt). lia. }
  rewrite E. cbn [obind]. rewrite Hl, Hlk. rewrite drop_app.
  set (y := b :: x) in *. assert (HL' : L <= lcp (pre ++ y) rest).
  { unfold L. rewrite <- (take_app pre y) at 1. rewrite lcp_take_l'. lia. }
  pose proof (lcp_le_l (pre ++ y) rest) as Hll. pose proof (lcp_le_r (pre ++ y) rest) as Hlr. rewrite app_length in Hll.
  rewrite cmp_loop_spec; [| |rewrite !app_length; lia|rewrite !app_length; lia|rewrite !app_length; unfold m in *; lia].
  2:{ rewrite !app_length. lia. }
  eexists. split; [reflexivity|]. 
  rewrite <- drop_drop, drop_app, lcp_drop by lia. rewrite !app_length.
  assert (Hpre : lcp pre rest = length pre `min` lcp (pre ++ y) rest).
  { rewrite <- lcp_take_l'. by rewrite take_app. }
  fold L in Hpre.
  destruct (decide (length pre <= lcp (pre ++ y) rest)) as [Hd|Hd].
  - left. split; [unfold m in *; lia|]. apply prefix_app. apply lcp_full. fold L. lia.
  - right. unfold m in *. lia.
Qed.

(** ** Where the nodes of a tree stand
    [noded p t x q]: node x of t (which is at path p) is at path q. *)
Inductive noded : bytes -> art -> addr -> bytes -> Prop :=
| noded_here p a pre lf kids : noded p (Art a pre lf kids) a p
| noded_kid p a pre lf kids b t x q : (b, t) ∈ kids -> noded (p ++ pre ++ [b]) t x q -> noded p (Art a pre lf kids) x q.
(** Every node of t that is not on the path of key has a counterpart in t', not below it, with the same channel. *)
Definition kept (key : bytes) (h h' : heap V) (p : bytes) (t t' : art) : Prop :=
  forall x q n, noded p t x q -> ~ q `prefix_of` key -> h_nodes h !! x = Some n ->
    exists x' q' n', noded p t' x' q' /\ q' `prefix_of` q /\ h_nodes h' !! x' = Some n' /\ n_ch n' = n_ch n.

Lemma noded_inv p a pre lf kids x q : noded p (Art a pre lf kids) x q ->
  (x = a /\ q = p) \/ exists b t, (b, t) ∈ kids /\ noded (p ++ pre ++ [b]) t x q.
Proof. intros Hx. inversion Hx; subst; eauto. Qed.
Lemma noded_fp p t x q : noded p t x q -> x ∈ fp t.
Proof.
  induction 1 as [|p a pre lf kids b t x q Hbt _ IH]; rewrite fp_eq; [left|]. right. apply elem_of_app. right. apply elem_kfp. eauto.
Qed.
Lemma noded_pos p t x q : noded p t x q -> p `prefix_of` q.
Proof. induction 1 as [|p a pre lf kids b t x q Hbt _ IH]; [done|]. etrans; [|exact IH]. by exists (pre ++ [b]). Qed.
Lemma kept_kids key h h' p a pre lf kids t' : p `prefix_of` key ->
  (forall b t x q n, (b, t) ∈ kids -> noded (p ++ pre ++ [b]) t x q -> ~ q `prefix_of` key -> h_nodes h !! x = Some n ->
     exists x' q' n', noded p t' x' q' /\ q' `prefix_of` q /\ h_nodes h' !! x' = Some n' /\ n_ch n' = n_ch n) ->
  kept key h h' p (Art a pre lf kids) t'.
Proof.
  intros Hp Hk x q n Hx Hq Hn. apply noded_inv in Hx as [[-> ->]|(b & t & Hbt & Hx)]; [done|]. by eapply Hk.
Qed.
Lemma kept_holder key h h' p a pre lf t' : p `prefix_of` key -> kept key h h' p (Art a pre lf []) t'.
Proof. intros Hp. apply kept_kids; [done|]. intros b t x q n Hbt. by apply elem_of_nil in Hbt. Qed.
(** The children as before. *)
Lemma kept_move key h h' p a pre lf kids t' : p `prefix_of` key ->
  (forall b t x, (b, t) ∈ kids -> x ∈ fp t -> h_nodes h' !! x = h_nodes h !! x) ->
  (forall b t x q, (b, t) ∈ kids -> noded (p ++ pre ++ [b]) t x q -> noded p t' x q) ->
  kept key h h' p (Art a pre lf kids) t'.
Proof.
  intros Hp Hh Hk. apply kept_kids; [done|]. intros b t x q n Hbt Hx _ Hn. exists x, q, n. split; [by eapply Hk|]. split; [done|]. split; [|done].
  rewrite (Hh b t); [done|done|]. by eapply noded_fp.
Qed.
Lemma kept_same key h h' p a pre lf kids a' lf' kids' : p `prefix_of` key -> (forall x, x ∈ kids -> x ∈ kids') ->
  (forall x, x ∈ kfp kids -> h_nodes h' !! x = h_nodes h !! x) -> kept key h h' p (Art a pre lf kids) (Art a' pre lf' kids').
Proof.
  intros Hp Hin Hh. apply kept_move; [done| |].
  - intros b t x Hbt Hx. apply Hh, elem_kfp. eauto.
  - intros b t x q Hbt Hx. eapply noded_kid; [by apply Hin|exact Hx].
Qed.
(** One child replaced. *)
Lemma kept_set key h h' p a pre lf k1 b tc k2 a' lf' tc' : p `prefix_of` key ->
  (forall x, x ∈ kfp k1 ++ kfp k2 -> h_nodes h' !! x = h_nodes h !! x) -> kept key h h' (p ++ pre ++ [b]) tc tc' ->
  kept key h h' p (Art a pre lf (k1 ++ (b, tc) :: k2)) (Art a' pre lf' (k1 ++ (b, tc') :: k2)).
Proof.
  intros Hp Hh Hc. apply kept_kids; [done|]. intros b' t x q n Hbt Hx Hq Hn.
  assert (Ho : (b', t) ∈ k1 ++ k2 -> exists x' q' n', noded p (Art a' pre lf' (k1 ++ (b, tc') :: k2)) x' q' /\ q' `prefix_of` q /\
     h_nodes h' !! x' = Some n' /\ n_ch n' = n_ch n).
  { intros Hb. exists x, q, n. split; [eapply (noded_kid _ _ _ _ _ b' t); [|done]|].
    - apply elem_of_app in Hb as [Hb|Hb]; apply elem_of_app; [by left|right; by right].
    - split; [done|]. split; [|done]. rewrite Hh; [done|]. rewrite <- kfp_app. apply elem_kfp. exists b', t. split; [done|]. by eapply noded_fp. }
  apply elem_of_app in Hbt as [Hbt|Hbt]; [apply Ho, elem_of_app; by left|]. apply elem_of_cons in Hbt as [E|Hbt]; [|apply Ho, elem_of_app; by right].
  injection E as -> ->. destruct (Hc x q n Hx Hq Hn) as (x' & q' & n' & Hx' & Hrest). exists x', q', n'. split; [|done].
  eapply (noded_kid _ _ _ _ _ b tc'); [apply elem_of_app; right; left|done].
Qed.
Lemma kept_heap key h h' h2 h2' p t t' : kept key h h' p t t' -> (forall x, x ∈ fp t -> h_nodes h2 !! x = h_nodes h !! x) ->
  (forall x, x ∈ fp t' -> h_nodes h2' !! x = h_nodes h' !! x) -> kept key h2 h2' p t t'.
Proof.
  intros Hk H1 H2 x q n Hx Hq Hn. rewrite H1 in Hn by by eapply noded_fp. destruct (Hk x q n Hx Hq Hn) as (x' & q' & n' & Hx' & Hq' & Hn' & E).
  exists x', q', n'. split; [done|]. split; [done|]. split; [|done]. rewrite H2; [done|]. by eapply noded_fp.
Qed.
Lemma upd_nodes (X : addr -> Prop) (s s' : st V) x : upd X s s' -> x < nx s -> ~ X x -> nd s' !! x = nd s !! x.
Proof. intros HU Hx HX. by destruct (upd_same _ _ _ HU x Hx HX) as [E _]. Qed.

(** ** Inner nodes without a leaf and with one child only
    [thin p t w]: t (which is at path p) has such a node whose path, the compressed part included, is w. *)
Inductive thin : bytes -> art -> bytes -> Prop :=
| thin_here p a pre b t : thin p (Art a pre None [(b, t)]) (p ++ pre)
| thin_kid p a pre lf kids b t w : (b, t) ∈ kids -> thin (p ++ pre ++ [b]) t w -> thin p (Art a pre lf kids) w.
Lemma thin_inv p a pre lf kids w : thin p (Art a pre lf kids) w ->
  (lf = None /\ length kids = 1 /\ w = p ++ pre) \/ exists b t, (b, t) ∈ kids /\ thin (p ++ pre ++ [b]) t w.
Proof. intros Hx. inversion Hx; subst; eauto. Qed.
Lemma thin_root p a pre kids : length kids = 1 -> thin p (Art a pre None kids) (p ++ pre).
Proof. destruct kids as [|[b t] [|? ?]]; cbn; try lia. intros _. constructor. Qed.
Lemma thin_holder p a pre lf w : ~ thin p (Art a pre lf []) w.
Proof. intros Hx. apply thin_inv in Hx as [(_ & ? & _)|(b & t & Hbt & _)]; [done|]. by apply elem_of_nil in Hbt. Qed.
Definition fewer (p : bytes) (t t' : art) : Prop := forall w, thin p t' w -> thin p t w.
Lemma thin_kids p a pre lf kids t' : (forall w, thin p t' w -> exists b t, (b, t) ∈ kids /\ thin (p ++ pre ++ [b]) t w) ->
  fewer p (Art a pre lf kids) t'.
Proof. intros Hk w Hw. destruct (Hk w Hw) as (b & t & Hbt & Ht). by eapply thin_kid. Qed.
(** One child replaced. *)
Lemma thin_set p a pre lf k1 b tc k2 a' tc' w : thin p (Art a' pre lf (k1 ++ (b, tc') :: k2)) w ->
  thin p (Art a pre lf (k1 ++ (b, tc) :: k2)) w \/ thin (p ++ pre ++ [b]) tc' w.
Proof.
  intros Hw. apply thin_inv in Hw as [(-> & Hl & ->)|(b' & t & Hbt & Ht)].
  - left. apply thin_root. rewrite app_length in *. done.
  - apply elem_of_app in Hbt as [Hbt|Hbt]; [left; eapply thin_kid; [|exact Ht]; apply elem_of_app; by left|].
    apply elem_of_cons in Hbt as [E|Hbt]; [injection E as -> ->; by right|]. left. eapply thin_kid; [|exact Ht]. apply elem_of_app. right. by right.
Qed.

(** ** Postcondition of Insert below a node *)
Definition report (t : art) (key : bytes) (old : V) (ob : bool) : Prop :=
  if ob then (key, old) ∈ leaves t
  else old = go_zero /\ ((forall v, (key, v) ∉ leaves t) \/
                         exists k' v', (k', v') ∈ leaves t /\ k' <> key /\ getKey key `prefix_of` k').
Definition ins_at (s : st V) (p : bytes) (t : art) (key : bytes) (v : V) (t' : art) (r : addr * V * bool * bool) (s' : st V) : Prop :=
  r.1.1.1 = aroot t' /\ r.1.2 = true /\ rep (s_h s') p t' /\ NoDup (fp t') /\
    (forall x, x ∈ fp t' -> x ∈ fp t \/ nx s <= x) /\ upd (fun x => x ∈ fp t) s s' /\
    (forall k' v', (k', v') ∈ leaves t' <-> (k' = key /\ v' = v) \/ (k' <> key /\ (k', v') ∈ leaves t)) /\
    report t key r.1.1.2 r.2 /\ kept key (s_h s) (s_h s') p t t' /\ fewer p t t'.
Definition ins_post (s : st V) (p : bytes) (t : art) (key : bytes) (v : V) (r : addr * V * bool * bool) (s' : st V) : Prop :=
  exists t', ins_at s p t key v t' r s'.

Lemma rep_copy (s s' : st V) X p a pre lf kids n a' n' : rep (s_h s) p (Art a pre lf kids) -> nd s !! a = Some n ->
  nd s' !! a' = Some n' -> a' < nx s' -> same_node n n' -> upd X s s' -> (forall x, x ∈ lfa lf ++ kfp kids -> ~ X x) ->
  rep (s_h s') p (Art a' pre lf kids).
Proof.
  intros Hr Hn Hn' Hlt' Hsn HU HX. pose proof (rep_low _ _ _ _ _ _ n Hr Hn) as Hlow.
  apply rep_inv in Hr as (n0 & Hn0 & Hlt & He & Hpl & Hlf & Hk1 & Hk2 & Hk3 & Hst & Hkids).
  assert (n0 = n) as -> by congruence. pose proof Hsn as (E1 & E2 & E3 & E4 & E5 & E6 & E7).
  apply (rep_node _ _ _ _ _ _ n'); [..|by rewrite E1]; try done.
  - eapply enc_same; [|done]. by apply same_node_arr.
  - by rewrite E4.
  - rewrite E7. eapply upd_leafrep; [done|done|]. intros x Hx. apply HX. set_solver.
  - by rewrite E2, E4.
  - intros c Hc. rewrite (stale_same n n') in Hc by by apply same_node_arr. destruct (Hst c Hc) as (b & Hb & Hok).
    exists b. split; [done|]. by apply (upd_ext _ _ _ HU).
  - intros b t Hbt. eapply upd_rep; [done|by apply Hkids|]. intros x Hx. apply HX. apply elem_of_app. right. apply elem_kfp. eauto.
Qed.
Lemma rep_holder (h : heap V) p p' a pre la k v : rep h p (Art a pre (Some (la, k, v)) []) -> p' `prefix_of` k ->
  rep h p' (Art a pre (Some (la, k, v)) []).
Proof.
  intros Hr Hp. pose proof (fun n => rep_low _ _ _ _ _ _ n Hr) as Hlow. apply rep_inv in Hr as (n0 & Hn0 & Hlt & He & Hpl & Hlf & Hk1 & Hk2 & Hk3 & Hst & Hkids).
  apply (rep_node _ _ _ _ _ _ n0); [..|by apply Hlow]; try done.
  - intros _. eauto 10.
  - intros la0 k0 v0 [= <- <- <-]. split; [by apply (Hk3 la k v)|done].
  - intros c Hc. destruct (Hst c Hc) as (b & Hb & _). by apply elem_of_nil in Hb.
  - intros b t Hb. by apply elem_of_nil in Hb.
Qed.

(** ** A new inner node *)
Lemma newInner_spec {B} s L src (K : addr -> TM B) Q : length src = maxPrefixLen `min` L ->
  (forall s' n', nx s' = S (nx s) -> nd s' !! nx s = Some n' -> upd none s s' -> lv s' = lv s -> enc n' [] -> n_leaf n' = None -> stale n' = [] -> n_kind n' = K4 ->
     n_plen n' = L -> length (n_partial n') = maxPrefixLen -> take (maxPrefixLen `min` L) (n_partial n') = src -> wp (K (nx s)) Q s') ->
  wp (let! newNode := allocNode K4 in
      updN newNode (fun n => Ok (set_plen n L)) ;;;
      copyPartial newNode src ;;; K newNode) Q s.
Proof.
  intros Hsrc HK. apply wp_bind, wp_allocNode. apply wp_bind. eapply wp_updN; [cbn; by rewrite lookup_insert|reflexivity|].
  apply wp_bind. eapply wp_copyPartial; [cbn; by rewrite lookup_insert|]. eapply HK.
  - done.
  - cbn. by rewrite lookup_insert.
  - eapply upd_stN; [eapply upd_stN; [eapply upd_alN, upd_refl| |by left]| |by left].
    all: cbn; by rewrite lookup_insert.
  - done.
  - eapply enc_same; [|apply (enc_zero4 0)]. done.
  - done.
  - done.
  - done.
  - done.
  - cbn [n_partial set_partial set_plen fresh_node]. rewrite go_copy_0 by (cbn; rewrite replicate_length; lia).
    rewrite app_length, drop_length. cbn. rewrite replicate_length. lia.
  - cbn [n_partial set_partial set_plen fresh_node]. rewrite go_copy_0 by (cbn; rewrite replicate_length; lia).
    by rewrite take_app_alt.
Qed.

End Insert.
