(** The lower bound iterator on represented trees. *)
From Verif Require Export ReadTop.
Local Open Scope nat_scope.

(** ** Comparison of byte strings *)
Lemma cmp_lt x y : bytes_compare x y = Lt <-> klt x y.
Proof.
  revert y. induction x as [|a x IH]; intros [|b y]; cbn; try done.
  destruct (Nat.ltb_spec a b); [split; [by left|done]|]. destruct (Nat.ltb_spec b a); [split; [done|intros [?|[? _]]; lia]|].
  rewrite IH. split; [intros; right; split; [lia|done]|intros [?|[_ ?]]; [lia|done]].
Qed.
Lemma cmp_eq x y : bytes_compare x y = Eq <-> x = y.
Proof.
  revert y. induction x as [|a x IH]; intros [|b y]; cbn; try done.
  destruct (Nat.ltb_spec a b); [split; [done|intros [= -> _]; lia]|]. destruct (Nat.ltb_spec b a); [split; [done|intros [= -> _]; lia]|].
  rewrite IH. split; [intros ->; f_equal; lia|by intros [= _ ->]].
Qed.
Lemma cmp_gt x y : bytes_compare x y = Gt <-> klt y x.
Proof.
  revert y. induction x as [|a x IH]; intros [|b y]; cbn; try done.
  destruct (Nat.ltb_spec a b); [split; [done|intros [?|[? _]]; lia]|]. destruct (Nat.ltb_spec b a); [split; [by left|done]|].
  rewrite IH. split; [intros; right; split; [lia|done]|intros [?|[_ ?]]; [lia|done]].
Qed.
Lemma klt_irrefl' x : ~ klt x x.
Proof. induction x as [|a x IH]; cbn; [tauto|]. intros [?|[_ ?]]; [lia|done]. Qed.
Lemma geb_klt x y : bytes_geb x y = true <-> ~ klt x y.
Proof.
  unfold bytes_geb. destruct (bytes_compare x y) eqn:E.
  - apply cmp_eq in E as ->. split; [intros _; apply klt_irrefl'|done].
  - apply cmp_lt in E. split; [done|]. by intros [].
  - split; [|done]. intros _ Hk. apply cmp_lt in Hk. congruence.
Qed.
Lemma leb_klt x y : bytes_leb x y = true <-> ~ klt y x.
Proof.
  unfold bytes_leb. destruct (bytes_compare x y) eqn:E.
  - apply cmp_eq in E as ->. split; [intros _; apply klt_irrefl'|done].
  - split; [|done]. intros _ Hk. apply cmp_gt in Hk. congruence.
  - apply cmp_gt in E. split; [done|]. by intros [].
Qed.
(** a difference inside *)
Lemma klt_diff x y u v : klt x y -> length y <= length x -> klt (x ++ u) (y ++ v).
Proof.
  revert y. induction x as [|a x IH]; intros [|b y] Hk Hl; cbn in *; try done; try lia.
  destruct Hk as [?|[-> Hk]]; [by left|]. right. split; [done|]. apply IH; [done|lia].
Qed.
Lemma klt_anti x y : klt x y -> ~ klt y x.
Proof. revert y. induction x as [|a x IH]; intros [|b y]; cbn; [done|tauto|done|]. intros [?|[-> Hk]] [?|[? Hk']]; try lia. by apply (IH y). Qed.
Lemma klt_ext x y z : klt x y -> klt x (y ++ z).
Proof. revert y. induction x as [|a x IH]; intros [|b y]; cbn; try done. intros [?|[-> Hk]]; [by left|]. right. auto. Qed.
(** comparing stored keys with their terminators *)
Lemma klt_term k q : (forall c x, k = q ++ c :: x -> dollar <= c) -> ~ klt k q -> ~ klt (k ++ [dollar]) (q ++ [dollar]).
Proof.
  revert q. induction k as [|a k IH]; intros [|b q] Hh Hn Hk; cbn in *.
  - destruct Hk as [?|[_ []]]; lia.
  - by apply Hn.
  - specialize (Hh a k eq_refl). destruct Hk as [?|[_ Hk]]; [lia|]. by destruct k.
  - destruct Hk as [?|[-> Hk]]; [auto|]. apply (IH q); [|intros Hx; apply Hn; by right|done]. intros c x ->. by apply (Hh c x).
Qed.

Section ReadLow.
Context {V : Type} `{GoZero V}.
Notation art := (art V).

Definition pfL (L : list (bytes * V)) : Prop :=
  forall k k' v v', (k, v) ∈ L -> (k', v') ∈ L -> getKey k `prefix_of` getKey k' -> k = k'.
Definition narrowL (L : list (bytes * V)) : Prop :=
  forall q, exists bs, length bs <= 12 /\ forall b k v, (k, v) ∈ L -> (q ++ [b]) `prefix_of` k -> b ∈ bs.
Lemma pfL_sub L L' : (forall x, x ∈ L' -> x ∈ L) -> pfL L -> pfL L'.
Proof. intros Hs Hp k k' v v' H1 H2. eapply Hp; by apply Hs. Qed.
Lemma narrowL_sub L L' : (forall x, x ∈ L' -> x ∈ L) -> narrowL L -> narrowL L'.
Proof. intros Hs Hp q. destruct (Hp q) as (bs & Hl & Hb). exists bs. split; [done|]. intros b k v Hin. eapply Hb. by apply Hs. Qed.
Lemma kid_sub a pre lf (kids : list (nat * art)) b t : (b, t) ∈ kids -> forall x, x ∈ leaves t -> x ∈ leaves (Art a pre lf kids).
Proof. intros Hbt [k v] Hin. apply elem_leaves. eauto. Qed.

(** In a prefix-free set inner nodes have no leaf of their own. *)
Lemma pf_bare (h : heap V) p a pre lf kids : rep h p (Art a pre lf kids) -> pfL (leaves (Art a pre lf kids)) -> kids <> [] -> lf = None.
Proof.
  intros Hr Hpf Hne. destruct lf as [[[la k] v]|]; [|done]. exfalso. pose proof Hr as Hr0.
  apply rep_inv in Hr as (n & Hn & Hlt & He & Hpl & Hlf & Hk1 & Hk2 & Hk3 & Hst & Hkids).
  destruct (Hk3 _ _ _ eq_refl) as [_ Hx]. destruct (Hx Hne) as [-> Hd]. destruct kids as [|[b t] kids]; [done|].
  destruct (rep_nonempty _ _ _ (Hkids b t ltac:(left))) as (k' & v' & Hin).
  pose proof (rep_leaves_kid _ _ _ _ _ _ _ _ _ _ Hr0 ltac:(left) Hin) as Hp. destruct (rep_leaves _ _ _ _ _ (Hkids b t ltac:(left)) Hin) as [_ (k0 & -> & _)].
  rewrite app_assoc in Hp. apply snoc_prefix_inv in Hp as [[-> _]|[x Ex]]; [apply Hd; left|].
  assert (E : p ++ pre ++ [dollar] = k0 ++ [dollar]).
  { eapply Hpf; [apply elem_leaves; left; eauto|apply elem_leaves; right; exists b, t; split; [left|done]|].
    rewrite app_assoc, !getKey_snoc, Ex. by apply prefix_app_r. }
  rewrite app_assoc in E. apply app_inj_tail in E as [E _]. rewrite <- E in Ex. apply (f_equal length) in Ex. rewrite !app_length in Ex. cbn in Ex. lia.
Qed.
(** With few continuations all nodes are sorted arrays. *)
Lemma narrow_kind (h : heap V) p a pre lf kids n : rep h p (Art a pre lf kids) -> narrowL (leaves (Art a pre lf kids)) ->
  h_nodes h !! a = Some n -> sortedkind (n_kind n) = true.
Proof.
  intros Hr Hnl Hn. pose proof (rep_low _ _ _ _ _ _ _ Hr Hn) as Hlow. pose proof (rep_sorted _ _ _ _ _ _ Hr) as Hnd. pose proof Hr as Hr0.
  apply rep_inv in Hr as (n' & Hn' & Hlt & He & Hpl & Hlf & Hk1 & Hk2 & Hk3 & Hst & Hkids).
  destruct (Hnl (p ++ pre)) as (bs & Hbl & Hbs). assert (Hkl : length kids <= 12).
  { rewrite <- (fmap_length fst). etrans; [|exact Hbl]. apply submseteq_length, NoDup_submseteq; [done|].
    intros b Hb. apply elem_of_list_fmap in Hb as ([b' t] & -> & Hbt). destruct (rep_nonempty _ _ _ (Hkids _ _ Hbt)) as (k & v & Hin).
    apply (Hbs b' k v); [apply elem_leaves; eauto|]. rewrite <- app_assoc. by eapply (rep_leaves_kid h p a pre lf kids b' t k v). }
  destruct (n_kind n); cbn in *; try done; lia.
Qed.

(** ** Next *)
Lemma lowerNextLoop_spec (h : heap V) fuel : forall ts, stk h ts -> length (sfp ts) < fuel ->
  match sl ts with
  | [] => lowerNextLoop fuel h (ents_of ts) = Ok (None, [])
  | kv :: L => exists ts', lowerNextLoop fuel h (ents_of ts) = Ok (Some (getKey kv.1, kv.2), ents_of ts') /\ stk h ts' /\
                 length (sfp ts') <= length (sfp ts) /\ sl ts' = L
  end.
Proof.
  induction fuel as [|fuel IH]; intros ts Hs Hf; [lia|]. destruct ts as [|[a pre lf kids] ts]; [done|].
  inversion Hs as [|? ? [p Hr] Hs']; subst. apply rep_inv in Hr as (n & Hn & Hlt & He & Hpl & Hlf & Hk1 & Hk2 & Hk3 & Hst & Hkids).
  cbn [lowerNextLoop ents_of fmap list_fmap aroot]. rewrite Hn. fold (ents_of ts). rewrite (kids_ents kids n He).
  replace (ents_of kids.*2 ++ ents_of ts) with (ents_of (kids.*2 ++ ts)) by (unfold ents_of; by rewrite fmap_app).
  assert (Hs2 : stk h (kids.*2 ++ ts)) by (apply Forall_app; split; [by eapply (kids_stk h (fun b => p ++ pre ++ [b]))|done]).
  assert (Hl2 : length (sfp (Art a pre lf kids :: ts)) = S (length (lfa lf) + length (sfp (kids.*2 ++ ts)))).
  { unfold sfp at 1. cbn [List.map concat]. rewrite fp_eq, sfp_app, kids_sfp. cbn. rewrite !app_length. unfold sfp. lia. }
  assert (Esl : sl (Art a pre lf kids :: ts) = lfl lf ++ sl (kids.*2 ++ ts)).
  { unfold sl at 1. cbn [List.map concat]. by rewrite leaves_eq, sl_app, kids_sl, <- app_assoc. }
  rewrite Esl. specialize (IH (kids.*2 ++ ts) Hs2 ltac:(lia)).
  destruct lf as [[[la k] v]|]; cbn [lfl app] in *.
  - destruct Hlf as (-> & _ & l & -> & -> & ->). exists (kids.*2 ++ ts). cbn [fst snd]. split_and!; [done..|lia|done].
  - cbn in Hlf. rewrite Hlf. destruct (sl (kids.*2 ++ ts)) as [|kv L]; [done|]. destruct IH as (ts' & E & ? & ? & ?). exists ts'. split_and!; [done..|lia|done].
Qed.
Lemma lowerNext_yields (h : heap V) nd ts : stk h ts -> length (sfp ts) <= h_next h ->
  yields (lowerNext h) (mkLI nd (ents_of ts)) (unterm (sl ts)).
Proof.
  remember (sl ts) as L eqn:EL. revert ts EL. induction L as [|kv L IH]; intros ts EL Hs Hl.
  - pose proof (lowerNextLoop_spec h (walk_fuel h) ts Hs) as Hn. rewrite <- EL in Hn. eapply yields_nil. unfold lowerNext. cbn [li_node li_stack].
    rewrite Hn; [cbn; done|]. unfold walk_fuel. lia.
  - pose proof (lowerNextLoop_spec h (walk_fuel h) ts Hs) as Hn. rewrite <- EL in Hn. destruct Hn as (ts' & E & Hs' & Hl' & EL'); [unfold walk_fuel; lia|].
    cbn. eapply yields_cons; [|apply (IH ts'); [done..|lia]]. unfold lowerNext. cbn [li_node li_stack]. rewrite E. done.
Qed.

(** ** SeekLowerBound *)
Definition above_of (path : bytes) (L L' : list (bytes * V)) : Prop :=
  L' `sublist_of` L /\ forall kv, kv ∈ L -> bytes_geb kv.1 path = true -> kv ∈ L'.
Lemma above_refl path L : above_of path L L.
Proof. split; [done|]. auto. Qed.
Lemma above_none path L : (forall kv, kv ∈ L -> bytes_geb kv.1 path = false) -> above_of path L [].
Proof. intros Hn. split; [apply sublist_nil_l|]. intros kv Hin Hg. rewrite (Hn kv Hin) in Hg. done. Qed.
Lemma above_app path L1 L2 L1' L2' : above_of path L1 L1' -> above_of path L2 L2' -> above_of path (L1 ++ L2) (L1' ++ L2').
Proof.
  intros [H1 H2] [H3 H4]. split; [by apply sublist_app|]. intros kv. rewrite !elem_of_app. intros [Hin|Hin] Hg; [left|right]; auto.
Qed.

Lemma sorted_child n (es : entries) i e : enc n es -> sortedkind (n_kind n) = true -> es !! i = Some e -> getChild n i = Ok (Some e.2) /\ getKeyAtIdx n i = Ok e.1.
Proof.
  intros He Hk Hi. destruct (enc_key_lookup _ _ _ _ He Hk Hi) as [E1 E2]. unfold getChild, getKeyAtIdx. rewrite E1, E2. by destruct (n_kind n).
Qed.
Lemma ents_lookup (kids : list (nat * art)) i b t : kids !! i = Some (b, t) -> ents kids !! i = Some (b, aroot t).
Proof. intros Hi. unfold ents. by rewrite list_lookup_fmap, Hi. Qed.

Lemma leafOf_rep (h : heap V) p a pre lf kids n : rep h p (Art a pre lf kids) -> h_nodes h !! a = Some n ->
  leafOf h n = Ok (match lf with Some (la, k, _) => Some (la, k) | None => None end).
Proof.
  intros Hr Hn. apply rep_inv in Hr as (n' & Hn' & Hlt & He & Hpl & Hlf & Hk1 & Hk2 & Hk3 & Hst & Hkids). assert (n' = n) as -> by congruence.
  unfold leafOf. destruct lf as [[[la k] v]|]; cbn in Hlf; [|by rewrite Hlf]. destruct Hlf as (-> & _ & l & -> & <- & _). done.
Qed.

(** A node without children. *)
Definition holder (t : art) : Prop := match t with Art _ _ _ kids => kids = [] end.
Global Instance holder_dec t : Decision (holder t).
Proof. destruct t as [a pre lf [|x kids]]; [by left|by right]. Defined.
Lemma pushKids_spec (h : heap V) path np n q kids : enc n (ents kids) -> sortedkind (n_kind n) = true ->
  (forall b t, (b, t) ∈ kids -> rep h (q b) t) -> (forall b t, (b, t) ∈ kids -> pfL (leaves t)) ->
  forall k2 k1 k3 stack s', kids = k1 ++ k2 ++ k3 -> pushKids h path np n (reverse (seq (length k1) (length k2))) stack = Ok s' ->
  exists ts, s' = ents_of ts ++ stack /\ stk h ts /\ above_of path (kleaves k2) (sl ts) /\ length (sfp ts) <= length (kfp k2) /\
    forall kv, kv ∈ sl ts -> bytes_geb kv.1 path = true \/ exists b t, (b, t) ∈ k2 /\ ~ holder t /\ kv ∈ leaves t.
Proof.
  intros He Hk Hkids Hpf k2. induction k2 as [|[b t] k2 IH] using rev_ind; intros k1 k3 stack s' E Hp.
  - cbn in Hp. injection Hp as <-. exists []. split; [done|]. split; [constructor|]. split; [apply above_refl|]. split; [cbn; lia|]. intros kv Hkv. by apply elem_of_nil in Hkv.
  - rewrite app_length, Nat.add_1_r, seq_S, reverse_app in Hp. cbn [reverse rev_append app pushKids] in Hp.
    change (reverse [length k1 + length k2]) with [length k1 + length k2] in Hp. cbn [app pushKids] in Hp.
    assert (Hin : (b, t) ∈ kids) by (rewrite E; apply elem_of_app; right; apply elem_of_app; left; apply elem_of_app; right; left).
    assert (Hi : kids !! (length k1 + length k2) = Some (b, t)).
    { rewrite E, lookup_app_r by lia. rewrite <- app_assoc, lookup_app_r by lia. by replace (length k1 + length k2 - length k1 - length k2) with 0 by lia. }
    destruct (sorted_child n _ _ _ He Hk (ents_lookup _ _ _ _ Hi)) as [Hc _]. rewrite Hc in Hp. cbn [obind snd] in Hp.
    destruct t as [c pre lf kids2]. cbn [aroot] in Hp. pose proof (Hkids _ _ Hin) as Hr. pose proof Hr as Hr0.
    apply rep_inv in Hr as (m & Hm & Hlt & Hme & Hpl & Hlf & Hk1 & Hk2 & Hk3 & Hst & Hkids2).
    unfold nodeOf in Hp. rewrite Hm in Hp. cbn [obind] in Hp. rewrite (leafOf_rep _ _ _ _ _ _ _ Hr0 Hm) in Hp. cbn [obind] in Hp.
    rewrite kleaves_app, kleaves_cons, kfp_app, kfp_cons. change (kleaves []) with (@nil (bytes * V)). change (kfp (V:=V) []) with (@nil addr). rewrite !app_nil_r.
    set (T := Art c pre lf kids2) in *.
    assert (Hgo : forall ts0 stack', ents_of ts0 ++ stack = stack' -> stk h ts0 -> above_of path (leaves T) (sl ts0) -> length (sfp ts0) <= length (fp T) ->
      (forall kv, kv ∈ sl ts0 -> bytes_geb kv.1 path = true \/ (~ holder T /\ kv ∈ leaves T)) ->
      pushKids h path np n (reverse (seq (length k1) (length k2))) stack' = Ok s' ->
      exists ts, s' = ents_of ts ++ stack /\ stk h ts /\ above_of path (kleaves k2 ++ leaves T) (sl ts) /\ length (sfp ts) <= length (kfp k2 ++ fp T) /\
        forall kv, kv ∈ sl ts -> bytes_geb kv.1 path = true \/ exists b' t, (b', t) ∈ k2 ++ [(b, T)] /\ ~ holder t /\ kv ∈ leaves t).
    { intros ts0 stack' Es Hs0 Ha0 Hl0 HG0 Hp'. destruct (IH k1 ((b, T) :: k3) stack' s') as (ts & -> & Hs & Ha & Hl & HG); [by rewrite E, <- !app_assoc|done|].
      exists (ts ++ ts0). split; [rewrite <- Es; unfold ents_of; by rewrite fmap_app, app_assoc|]. split; [by apply Forall_app|].
      split; [rewrite sl_app; by apply above_app|]. split; [rewrite sfp_app, !app_length; lia|].
      intros kv Hkv. rewrite sl_app in Hkv. apply elem_of_app in Hkv as [Hkv|Hkv].
      - destruct (HG kv Hkv) as [?|(b' & t & Hb' & Ht & Hin')]; [by left|right]. exists b', t. split; [apply elem_of_app; by left|done].
      - destruct (HG0 kv Hkv) as [?|[Ht Hin']]; [by left|right]. exists b, T. split; [apply elem_of_app; right; left|done]. }
    assert (Hyes : (forall kv, kv ∈ leaves T -> bytes_geb kv.1 path = true \/ (~ holder T /\ kv ∈ leaves T)) ->
      pushKids h path np n (reverse (seq (length k1) (length k2))) (Some (RN c) :: stack) = Ok s' ->
      exists ts, s' = ents_of ts ++ stack /\ stk h ts /\ above_of path (kleaves k2 ++ leaves T) (sl ts) /\ length (sfp ts) <= length (kfp k2 ++ fp T) /\
        forall kv, kv ∈ sl ts -> bytes_geb kv.1 path = true \/ exists b' t, (b', t) ∈ k2 ++ [(b, T)] /\ ~ holder t /\ kv ∈ leaves t).
    { intros HGT. assert (Esl : sl [T] = leaves T) by (unfold sl; cbn [List.map concat]; by rewrite app_nil_r).
      apply (Hgo [T]); [done|repeat constructor; eauto|rewrite Esl; apply above_refl| |by rewrite Esl].
      unfold sfp. cbn [List.map concat]. by rewrite app_nil_r. }
    destruct lf as [[[la k] v]|].
    2:{ apply Hyes; [|done]. intros kv Hkv. right. split; [|done]. cbn. intros E2. by destruct (Hk2 E2) as (? & ? & ? & ? & _). }
    assert (Hone : kids2 = []) by (destruct kids2; [done|]; exfalso; by discriminate (pf_bare _ _ _ _ _ _ Hr0 (Hpf _ _ Hin))).
    destruct (bytes_geb k path) eqn:Eg.
    { apply Hyes; [|done]. unfold T. rewrite Hone. intros kv Hkv. cbn in Hkv. apply elem_of_list_singleton in Hkv as ->. by left. }
    apply (Hgo [] stack); [done|constructor| |cbn; lia|intros kv Hkv; by apply elem_of_nil in Hkv|done]. unfold sl. cbn [List.map concat]. apply above_none.
    assert (kids2 = []) as -> by (destruct kids2; [done|]; exfalso; by discriminate (pf_bare _ _ _ _ _ _ Hr0 (Hpf _ _ Hin))).
    intros kv Hkv. cbn in Hkv. by apply elem_of_list_singleton in Hkv as ->.
Qed.

Definition par_ok (h : heap V) (par : option addr) : Prop :=
  match par with None => True | Some q => exists pn, h_nodes h !! q = Some pn /\ n_leaf pn = None end.
Lemma pushParent_id (h : heap V) path np par stack s' : par_ok h par -> pushParent h path np par stack = Ok s' -> s' = stack.
Proof.
  intros Hp E. destruct par as [q|]; cbn in E; [|destruct np; congruence]. destruct Hp as (pn & Hpn & Hl).
  unfold nodeOf, leafOf in E. rewrite Hpn in E. cbn [obind] in E. rewrite Hl in E. cbn in E. congruence.
Qed.
Lemma keepNode_inv (o : outcome (list (option ref))) s cl : keepNode o = Ok (s, cl) -> o = Ok s.
Proof. unfold keepNode. destruct o; cbn; congruence. Qed.

(** the compressed path of an inner node *)
Lemma takePartial_pre n (pre part : bytes) : n_plen n = length pre -> length (n_partial n) = maxPrefixLen ->
  take (maxPrefixLen `min` length pre) (n_partial n) = take maxPrefixLen pre -> takePartial n = Ok part -> part = pre /\ length pre <= maxPrefixLen.
Proof.
  intros Hpn Hpl Hpt E. unfold takePartial in E. rewrite Hpl, Hpn in E. destruct (Nat.leb_spec (length pre) maxPrefixLen); [|done]. injection E as <-.
  replace (maxPrefixLen `min` length pre) with (length pre) in Hpt by lia. rewrite Hpt. split; [|done]. by apply firstn_all2.
Qed.
Lemma prefixMismatch_match (h : heap V) a n path (p pre : bytes) d : n_plen n = length pre -> length (n_partial n) = maxPrefixLen ->
  take (maxPrefixLen `min` length pre) (n_partial n) = take maxPrefixLen pre -> length pre <= maxPrefixLen -> (p ++ pre) `prefix_of` path ->
  prefixMismatch h a n path (length p) = Ok d -> d = length pre.
Proof.
  intros Hpn Hpl Hpt Hle [x ->] E. unfold prefixMismatch in E. rewrite Hpn in E.
  replace ((maxPrefixLen `min` length pre) `min` (length ((p ++ pre) ++ x) - length p)) with (length pre) in E by (rewrite !app_length; lia).
  replace (maxPrefixLen `min` length pre) with (length pre) in Hpt by lia. rewrite (firstn_all2 pre) in Hpt by done.
  rewrite cmp_loop_0 in E; [|lia|rewrite !app_length; lia]. cbn [obind] in E. rewrite <- app_assoc, drop_app in E.
  assert (Hm : length pre `min` lcp (n_partial n) (pre ++ x) = length pre).
  { rewrite <- lcp_take_l', Hpt. clear. induction pre as [|c pre IH]; cbn; [by destruct x|]. rewrite Nat.eqb_refl. by rewrite IH. }
  rewrite Hm in E. rewrite Nat.ltb_irrefl in E. rewrite (proj2 (Nat.ltb_ge _ _)) in E by done. congruence.
Qed.

Lemma ssorted_cut (es : entries) b : ssorted es -> exists l1 l2, es = l1 ++ l2 /\ below b l1 /\ Forall (fun e => b <= e.1) l2.
Proof.
  induction es as [|e es IH]; [intros _; exists [], []; repeat split; constructor|]. intros [Ha Hs]. destruct (decide (e.1 < b)) as [Hlt|Hge].
  - destruct (IH Hs) as (l1 & l2 & -> & H1 & H2). exists (e :: l1), l2. repeat split; [by constructor|done].
  - exists [], (e :: es). repeat split; [constructor|]. constructor; [lia|]. unfold above in Ha. rewrite Forall_forall in *. intros x Hx. specialize (Ha x Hx). lia.
Qed.
Lemma lower_ch n (kids : list (nat * art)) c o : enc n (ents kids) -> sortedkind (n_kind n) = true -> getLowerBoundCh n c = Ok o ->
  exists k1 k2, kids = k1 ++ k2 /\ (forall b t, (b, t) ∈ k1 -> b < c) /\ (forall b t, (b, t) ∈ k2 -> c <= b) /\
    o = (match k2 with [] => None | _ => Some (length k1) end).
Proof.
  intros He Hk E. destruct (ssorted_cut _ c (enc_sorted _ _ He)) as (l1 & l2 & El & H1 & H2).
  destruct (ents_split kids l1 l2 El) as (k1 & k2 & -> & <- & <-). rewrite El in He. exists k1, k2. split; [done|]. split; [|split].
  - intros b t Hbt. unfold below in H1. rewrite Forall_forall in H1. apply (H1 (b, aroot t)). apply elem_ents. eauto.
  - intros b t Hbt. rewrite Forall_forall in H2. apply (H2 (b, aroot t)). apply elem_ents. eauto.
  - pose proof (search_ge _ _ _ c He Hk H1 H2) as Es. pose proof (enc_nch_sorted _ _ He Hk) as Hn.
    assert (Hl1 : length (ents k1) = length k1) by (unfold ents; by rewrite fmap_length).
    assert (Hl2 : length (ents k1 ++ ents k2) = length k1 + length k2) by (rewrite app_length; unfold ents; by rewrite !fmap_length).
    unfold getLowerBoundCh in E. rewrite Es, Hn, Hl1, Hl2 in E. destruct k2 as [|x k2].
    + rewrite Nat.add_0_r, Nat.ltb_irrefl in E. by destruct (n_kind n); try done; injection E as <-.
    + rewrite (proj2 (Nat.ltb_lt _ _)) in E by (cbn; lia). by destruct (n_kind n); try done; injection E as <-.
Qed.

(** all keys of a subtree are below the bound *)
Lemma kids_below (h : heap V) p a pre lf kids path c b t kv : rep h p (Art a pre lf kids) -> (p ++ pre ++ [c]) `prefix_of` path ->
  (b, t) ∈ kids -> b < c -> kv ∈ leaves t -> bytes_geb kv.1 path = false.
Proof.
  intros Hr [y ->] Hbt Hlt Hin. destruct kv as [k v]. destruct (rep_leaves_kid _ _ _ _ _ _ _ _ _ _ Hr Hbt Hin) as [x ->]. cbn [fst].
  destruct (bytes_geb _ _) eqn:E; [|done]. apply geb_klt in E. exfalso. apply E. rewrite <- !app_assoc. apply klt_app, klt_app. by apply klt_cons.
Qed.

(** [under p t q u]: u, reached by the path q, is a subtree of t, reached by the path p. *)
Inductive under : bytes -> art -> bytes -> art -> Prop :=
| under_refl p t : under p t p t
| under_kid p a pre lf kids b t q u : (b, t) ∈ kids -> under (p ++ pre ++ [b]) t q u -> under p (Art a pre lf kids) q u.
(** keys that differ from the bound upwards *)
Lemma kids_above (h : heap V) p a pre lf kids path c b t kv : rep h p (Art a pre lf kids) -> (p ++ pre ++ [c]) `prefix_of` path ->
  (b, t) ∈ kids -> c < b -> kv ∈ leaves t -> bytes_geb kv.1 path = true.
Proof.
  intros Hr [y ->] Hbt Hlt Hin. destruct kv as [k v]. destruct (rep_leaves_kid _ _ _ _ _ _ _ _ _ _ Hr Hbt Hin) as [x ->]. cbn [fst].
  apply geb_klt. rewrite <- !app_assoc. rewrite !klt_app. cbn. intros [?|[? _]]; lia.
Qed.

(** [G] holds of the keys that may be returned: those not below the bound, and those under an inner node whose
    compressed path is not empty and agrees with the bound. *)
Lemma lowerLoop_spec (h : heap V) path (G : bytes * V -> Prop) t : forall fuel p par depth seen stack s' cl, rep h p t -> pfL (leaves t) -> narrowL (leaves t) ->
  (forall kv, bytes_geb kv.1 path = true -> G kv) ->
  (forall q a pre lf kids b t' kv, under p t q (Art a pre lf kids) -> pre <> [] -> (q ++ pre) `prefix_of` path -> (b, t') ∈ kids -> ~ holder t' -> kv ∈ leaves t' -> G kv) ->
  (seen = false -> p `prefix_of` path /\ depth = length p) -> (seen = true -> holder t \/ forall kv, kv ∈ leaves t -> G kv) -> par_ok h par ->
  lowerLoop fuel h path (Some (aroot t)) par depth seen stack = Ok (s', cl) ->
  exists ts, s' = ents_of ts ++ stack /\ stk h ts /\ above_of path (leaves t) (sl ts) /\ length (sfp ts) <= length (fp t) /\ forall kv, kv ∈ sl ts -> G kv.
Proof.
  induction t as [a pre lf kids IH] using art_ind'. intros fuel p par depth seen stack s' cl Hr Hpf Hnl HG1 HG2 Hun Hse Hpar Hl.
  destruct fuel as [|fuel]; [done|]. pose proof Hr as Hr0.
  apply rep_inv in Hr as (n & Hn & Hlt & He & Hpl & Hlf & Hk1 & Hk2 & Hk3 & Hst & Hkids).
  pose proof (narrow_kind _ _ _ _ _ _ _ Hr0 Hnl Hn) as Hk. pose proof (rep_isLeaf _ _ _ _ _ _ _ Hr0 Hn) as Hil.
  set (T := Art a pre lf kids) in *.
  set (post := fun s' => exists ts, s' = ents_of ts ++ stack /\ stk h ts /\ above_of path (leaves T) (sl ts) /\ length (sfp ts) <= length (fp T) /\ forall kv, kv ∈ sl ts -> G kv).
  assert (Pall : (forall kv, kv ∈ leaves T -> G kv) -> post (Some (RN a) :: stack)).
  { intros Hall. exists [T]. split; [done|]. split; [repeat constructor; eauto|]. unfold sl, sfp. cbn [List.map concat]. rewrite !app_nil_r. split; [apply above_refl|done]. }
  assert (Pnone : (forall kv, kv ∈ leaves T -> bytes_geb kv.1 path = false) -> post stack).
  { intros Hno. exists []. split; [done|]. split; [constructor|]. split; [by apply above_none|]. split; [cbn; lia|]. intros kv Hin. by apply elem_of_nil in Hin. }
  assert (Pfound : (kids = [] \/ forall kv, kv ∈ leaves T -> G kv) -> post (pushFound path a (match lf with Some (la, k, _) => Some (la, k) | None => None end) stack)).
  { intros Hall. destruct lf as [[[la k] v]|]; cbn [pushFound]; [|apply Pall; destruct Hall as [E|]; [|done]; by destruct (Hk2 E) as (? & ? & ? & ? & _)].
    assert (kids = []) as E by (destruct kids; [done|]; exfalso; by discriminate (pf_bare _ _ _ _ _ _ Hr0 Hpf)).
    destruct (bytes_geb k path) eqn:Eg; [apply Pall; unfold T; rewrite E; intros kv Hkv; cbn in Hkv; apply elem_of_list_singleton in Hkv as ->; by apply HG1|]. apply Pnone. unfold T. rewrite E.
    intros kv Hkv. cbn in Hkv. by apply elem_of_list_singleton in Hkv as ->. }
  assert (Ppar : forall np st0, post st0 -> keepNode (pushParent h path np par st0) = Ok (s', cl) -> post s').
  { intros np st0 Hp E. apply keepNode_inv in E. apply (pushParent_id _ _ _ _ _ _ Hpar) in E as ->. done. }
  change (post s'). cbn [lowerLoop aroot T] in Hl. unfold nodeOf in Hl at 1. rewrite Hn in Hl. cbn [obind] in Hl.
  rewrite (leafOf_rep _ _ _ _ _ _ _ Hr0 Hn) in Hl. cbn [obind] in Hl. rewrite Hil in Hl.
  destruct (decide (kids = [])) as [Ekids|Hne].
  - (* a leaf holder *)
    rewrite bool_decide_true in Hl by done. cbn [obind] in Hl. destruct (Hk2 Ekids) as (la & k & v & -> & _). cbn [andb] in Hl.
    assert (HT : leaves T = [(k, v)]) by (unfold T; by rewrite Ekids).
    destruct (bytes_geb k path) eqn:Eg; [exact (Ppar _ _ (Pfound (or_introl Ekids)) Hl)|].
    assert (Hno : post stack). { apply Pnone. rewrite HT. intros kv Hkv. by apply elem_of_list_singleton in Hkv as ->. }
    destruct (prefixMismatch h a n path depth) as [m| |]; cbn [obind] in Hl; [|done..].
    destruct (Nat.ltb m (n_plen n) && negb seen); [by injection Hl as <- _|].
    destruct (path !! (depth + n_plen n)) as [c|]; [|exact (Ppar _ _ (Pfound (or_introl Ekids)) Hl)].
    destruct (getLowerBoundCh n c) as [o| |] eqn:Eo; cbn [obind] in Hl; [|done..].
    destruct (lower_ch _ _ _ _ He Hk Eo) as (k1 & k2 & Ek & _ & _ & ->). rewrite Ekids in Ek. symmetry in Ek. apply app_nil in Ek as [-> ->].
    destruct (negb (seen || Nat.ltb 0 m)); [by injection Hl as <- _|]. rewrite ?Eg in Hl. cbn [obind] in Hl. exact (Ppar _ _ Hno Hl).
  - 
    pose proof (pf_bare _ _ _ _ _ _ Hr0 Hpf Hne) as ->. destruct (Hk1 Hne) as (Hpn & Hpt & Hnod).
    assert (Hse' : seen = true -> forall kv, kv ∈ leaves T -> G kv) by (intros Hs; destruct (Hse Hs) as [?|?]; done).
    rewrite bool_decide_false in Hl by done. cbn [andb] in Hl.
    destruct (takePartial n) as [part| |] eqn:Epart; cbn [obind] in Hl; [|done..].
    destruct (takePartial_pre _ _ _ Hpn Hpl Hpt Epart) as [-> Hple].
    destruct (Nat.ltb_spec (length path) depth) as [|Hdp]; cbn [obind] in Hl; [done|]. rewrite Hpn in Hl.
    set (sp := if Nat.ltb (length pre) (length path) then slice path depth (length path `min` (depth + length pre)) else drop depth path).
    assert (Hsp : length sp <= length pre /\ exists y, drop depth path = sp ++ y /\ (length sp = length pre \/ y = [])).
    { unfold sp, slice. destruct (Nat.ltb_spec (length pre) (length path)).
      - split; [rewrite take_length; lia|]. eexists. split; [symmetry; apply take_drop|]. rewrite take_length, drop_length.
        destruct (decide (depth + length pre <= length path)); [left; lia|]. right. apply drop_ge. rewrite drop_length. lia.
      - split; [rewrite drop_length; lia|]. exists []. rewrite app_nil_r. auto. }
    destruct Hsp as [Hspl (y & Hsp & Hspy)].
    match type of Hl with match ?X with _ => _ end = _ => replace X with (bytes_compare pre sp) in Hl by (unfold sp; by destruct (Nat.ltb _ _)) end.
    clearbody sp.
    assert (Hgo : (seen = false -> (p ++ pre) `prefix_of` path) ->
      (let? m := prefixMismatch h a n path depth in
       if Nat.ltb m (length pre) && negb seen then Ok (stack, false) else
       let seen0 := seen || Nat.ltb 0 m in
       let depth0 := depth + length pre in
       match path !! depth0 with
       | None => keepNode (pushParent h path false par (pushFound path a None stack))
       | Some c =>
          let? idx := getLowerBoundCh n c in
          match idx with
          | None =>
              if negb seen0 then Ok (stack, false) else
              let? stack := pushKids h path true n (reverse (seq 0 (n_nch n))) stack in
              keepNode (pushParent h path true par stack)
          | Some idx =>
              let idx := if seen0 then 0 else idx in
              let? pl := (match par with None => Ok None | Some p => let? pn := nodeOf h p in leafOf h pn end) in
              match seen0, pl with
              | true, Some (pla, pk) =>
                  let? stack := pushKids h path false n (reverse (seq 0 (n_nch n))) stack in
                  Ok (if bytes_geb pk path then Some (RL pla) :: stack else stack, false)
              | _, _ =>
                  let? stack := pushKids h path false n (reverse (seq (idx + 1) (n_nch n - (idx + 1)))) stack in
                  let? k := getKeyAtIdx n idx in
                  let seen := seen0 || negb (Nat.eqb k c) in
                  let? ch := getChild n idx in
                  lowerLoop fuel h path ch (Some a) (depth0 + 1) seen stack
              end
          end
       end) = Ok (s', cl) -> post s').
    { clear Hl. intros Hpp Hl. assert (Hnch : n_nch n = length kids) by (rewrite (enc_nch_sorted _ _ He Hk); unfold ents; by rewrite map_length).
      assert (Hlv : leaves T = kleaves kids) by done.
      assert (Hfp : fp T = a :: kfp kids) by done.
      destruct (prefixMismatch h a n path depth) as [m| |] eqn:Em; cbn [obind] in Hl; [|done..].
      assert (Hm : seen = false -> m = length pre).
      { intros Hs. destruct (Hun Hs) as [_ Hd]. rewrite Hd in Em. exact (prefixMismatch_match _ _ _ _ _ _ _ Hpn Hpl Hpt Hple (Hpp Hs) Em). }
      destruct (Nat.ltb m (length pre) && negb seen) eqn:Estop.
      { apply andb_true_iff in Estop as [E1 E2]. apply Nat.ltb_lt in E1. destruct seen; [done|]. specialize (Hm eq_refl). lia. }
      assert (Hcom : seen || Nat.ltb 0 m = true -> forall b t kv, (b, t) ∈ kids -> ~ holder t -> kv ∈ leaves t -> G kv).
      { intros Hs b t kv Hbt Hht Hin. destruct seen eqn:Es; [apply Hse'; [done|]; by apply (kid_sub a pre None kids b t)|]. cbn in Hs. apply Nat.ltb_lt in Hs. rewrite (Hm eq_refl) in Hs.
        apply (HG2 p a pre None kids b t kv); [apply under_refl|intros ->; cbn in Hs; lia|by apply Hpp|done..]. }
      clear Estop. cbn zeta in Hl. destruct (path !! (depth + length pre)) as [c|] eqn:Ec.
      2:{ refine (Ppar _ _ (Pall _) Hl). intros [k v] Hin. destruct seen eqn:Es; [by apply Hse'|]. apply HG1. cbn [fst]. destruct (Hun eq_refl) as [_ Hd].
          destruct (Hpp eq_refl) as [y0 Hy0]. apply lookup_ge_None in Ec. rewrite Hd in Ec. assert (y0 = []) as -> by (rewrite Hy0, !app_length in Ec; destruct y0; [done|cbn in Ec; lia]).
          rewrite app_nil_r in Hy0. rewrite Hlv in Hin. apply elem_kleaves in Hin as (b & t & Hbt & Hin). destruct (rep_leaves_kid _ _ _ _ _ _ _ _ _ _ Hr0 Hbt Hin) as [x ->].
          apply geb_klt. rewrite Hy0. rewrite <- !app_assoc. rewrite <- (app_nil_r pre) at 2. rewrite !klt_app. by intros []. }
      assert (Hpc : seen = false -> (p ++ pre ++ [c]) `prefix_of` path).
      { intros Hs. destruct (Hun Hs) as [_ Hd]. destruct (Hpp Hs) as [y0 Hy0]. rewrite Hy0, Hd, lookup_app_r in Ec by (rewrite app_length; lia).
        rewrite app_length in Ec. replace (_ - _) with 0 in Ec by lia. destruct y0 as [|c' y0]; [done|]. injection Ec as ->. exists y0. rewrite Hy0. by rewrite <- !app_assoc. }
      destruct (getLowerBoundCh n c) as [o| |] eqn:Eo; cbn [obind] in Hl; [|done..].
      destruct (lower_ch _ _ _ _ He Hk Eo) as (k1 & k2 & Ek & Hb1 & Hb2 & ->).
      assert (Hkpf : forall b t, (b, t) ∈ kids -> pfL (leaves t)) by (intros b t Hbt; eapply pfL_sub; [|exact Hpf]; by apply (kid_sub a pre None kids b)).
      assert (Hknl : forall b t, (b, t) ∈ kids -> narrowL (leaves t)) by (intros b t Hbt; eapply narrowL_sub; [|exact Hnl]; by apply (kid_sub a pre None kids b)).
      assert (Hbelow : seen = false -> forall kv, kv ∈ kleaves k1 -> bytes_geb kv.1 path = false).
      { intros Hs [k v] Hin. apply elem_kleaves in Hin as (b & t & Hbt & Hin). eapply (kids_below h p a pre None kids path c b t (k, v)); eauto. rewrite Ek. apply elem_of_app. by left. }
      destruct k2 as [|kt k2].
      - rewrite app_nil_r in Ek. destruct (negb (seen || Nat.ltb 0 m)) eqn:En.
        + injection Hl as <- _. apply Pnone. rewrite Hlv, Ek. apply Hbelow. by destruct seen.
        + destruct (pushKids h path true n (reverse (seq 0 (n_nch n))) stack) as [st0| |] eqn:Epk; cbn [obind] in Hl; [|done..].
          rewrite Hnch in Epk. apply (pushKids_spec h path true n (fun b => p ++ pre ++ [b]) kids He Hk Hkids Hkpf kids [] []) in Epk as (ts & -> & Hs1 & Hs2 & Hs3 & HsG); [|by rewrite app_nil_r].
          refine (Ppar _ _ _ Hl). exists ts. rewrite Hlv, Hfp. split; [done|]. split; [done|]. split; [done|]. split; [cbn [length]; lia|].
          intros kv Hin. apply negb_false_iff in En. destruct (HsG kv Hin) as [?|(b & t & Hbt & Hht & Hin')]; [by apply HG1|by eapply Hcom].
      - set (idx := if seen || Nat.ltb 0 m then 0 else length k1) in Hl.
        assert (Hpl0 : (match par with None => Ok None | Some q => let? pn := nodeOf h q in leafOf h pn end) = Ok (None : option (addr * bytes))).
        { destruct par as [q|]; [|done]. destruct Hpar as (pn & Hpn' & Hpl'). unfold nodeOf. rewrite Hpn'. cbn [obind]. unfold leafOf. by rewrite Hpl'. }
        rewrite Hpl0 in Hl. cbn [obind] in Hl.
        replace (match seen || Nat.ltb 0 m with true | _ => _ end) with (let? stack0 := pushKids h path false n (reverse (seq (idx + 1) (n_nch n - (idx + 1)))) stack in
                  let? k := getKeyAtIdx n idx in let? ch := getChild n idx in
                  lowerLoop fuel h path ch (Some a) (depth + length pre + 1) ((seen || Nat.ltb 0 m) || negb (Nat.eqb k c)) stack0) in Hl by (by destruct (seen || Nat.ltb 0 m)).
        assert (Hidx : exists j1 bt j2, kids = j1 ++ bt :: j2 /\ idx = length j1 /\ (seen || Nat.ltb 0 m = false -> j1 = k1 /\ bt = kt) /\ (forall kv, kv ∈ kleaves j1 -> bytes_geb kv.1 path = false)).
        { unfold idx. destruct (seen || Nat.ltb 0 m) eqn:Es.
          - destruct k1 as [|kt1 k1]; [exists [], kt, k2|exists [], kt1, (k1 ++ kt :: k2)]; repeat split; try done; intros kv Hin; by apply elem_of_nil in Hin.
          - exists k1, kt, k2. repeat split; try done. apply Hbelow. by destruct seen. }
        destruct Hidx as (j1 & [b t] & j2 & Ej & Eidx & Hjs & Hjb). clearbody idx. subst idx.
        destruct (pushKids _ _ _ _ _ _) as [st0| |] eqn:Epk; cbn [obind] in Hl; [|done..].
        replace (length j1 + 1) with (length (j1 ++ [(b, t)])) in Epk by (rewrite app_length; done).
        replace (n_nch n - length (j1 ++ [(b, t)])) with (length j2) in Epk by (rewrite Hnch, Ej, !app_length; cbn [length]; lia).
        apply (pushKids_spec h path false n (fun b => p ++ pre ++ [b]) kids He Hk Hkids Hkpf j2 (j1 ++ [(b, t)]) []) in Epk as (ts & -> & Hs1 & Hs2 & Hs3 & HsG); [|rewrite app_nil_r, <- app_assoc; done].
        assert (Hbt : kids !! length j1 = Some (b, t)) by (rewrite Ej; by apply list_lookup_middle).
        destruct (sorted_child _ _ _ _ He Hk (ents_lookup _ _ _ _ Hbt)) as [Eg1 Eg2]. rewrite Eg1, Eg2 in Hl. cbn [obind fst snd] in Hl.
        assert (Hin : (b, t) ∈ kids) by (by eapply elem_of_list_lookup_2).
        specialize (IH b t Hin).
        assert (Hkid : forall kv, kv ∈ leaves t -> kv ∈ leaves T) by (by apply (kid_sub a pre None kids b)).
        apply (IH fuel (p ++ pre ++ [b])) in Hl as (ts2 & -> & Ht1 & Ht2 & Ht3 & Ht4).
        + exists (ts2 ++ ts). rewrite Hlv, Hfp. split; [unfold ents_of; by rewrite List.map_app, <- app_assoc|]. split; [by apply Forall_app|].
          split; [|split; [unfold sfp in *; rewrite List.map_app, concat_app, app_length, Ej; unfold kfp in *; rewrite List.map_app, concat_app; cbn [List.map concat length snd]; rewrite !app_length; lia|]].
          2:{ intros kv Hkv. rewrite sl_app in Hkv. apply elem_of_app in Hkv as [Hkv|Hkv]; [by apply Ht4|].
              assert (Hk2' : kv ∈ kleaves j2) by (by eapply elem_of_submseteq, sublist_submseteq, Hs2).
              destruct (seen || Nat.ltb 0 m) eqn:Es.
              { destruct (HsG kv Hkv) as [?|(b' & t' & Hbt' & Hht & Hin')]; [by apply HG1|]. eapply (Hcom eq_refl b' t'); [|done..]. rewrite Ej. apply elem_of_app. right. by right. }
              destruct (Hjs eq_refl) as [-> Ekt]. apply orb_false_iff in Es as [-> _]. apply HG1. destruct kv as [k v]. apply elem_kleaves in Hk2' as (b' & t' & Hbt' & Hin').
              eapply (kids_above h p a pre None kids path c b' t' (k, v)); [done|by apply Hpc|rewrite Ej; apply elem_of_app; right; by right| |done].
              assert (Hcb : c <= b) by (apply (Hb2 b t); rewrite <- Ekt; left).
              assert (Hbb : b < b'); [|lia]. pose proof (enc_sorted _ _ He) as Hss. rewrite Ej in Hss. unfold ents in Hss. rewrite fmap_app in Hss. apply ssorted_app in Hss as (_ & Hss & _).
              cbn in Hss. destruct Hss as [Hab _]. unfold above in Hab. rewrite Forall_forall in Hab. apply (Hab (b', aroot t')). apply elem_of_list_fmap. by exists (b', t'). }
          replace (sl (ts2 ++ ts)) with ([] ++ sl ts2 ++ sl ts) by (unfold sl; by rewrite List.map_app, concat_app).
          rewrite Ej. unfold kleaves. rewrite List.map_app, concat_app. cbn [List.map concat snd].
          apply above_app; [by apply above_none|]. by apply above_app.
        + by apply Hkids.
        + by eapply Hkpf.
        + by eapply Hknl.
        + exact HG1.
        + intros q a' pre' lf' kids' b' t' kv Hu. apply (HG2 q a' pre' lf' kids' b' t' kv). by eapply under_kid.
        + intros Hs. apply orb_false_iff in Hs as [Hs1' Hs2']. apply orb_false_iff in Hs1' as [Hs3' Hs4']. specialize (Hpc Hs3'). destruct (Hun Hs3') as [_ Hd].
          apply negb_false_iff, Nat.eqb_eq in Hs2'. subst b. split; [done|]. rewrite !app_length. cbn. lia.
        + intros Hs. destruct (decide (holder t)) as [?|Hht]; [by left|right]. intros kv Hkv. destruct (seen || Nat.ltb 0 m) eqn:Es; [by apply (Hcom eq_refl b t)|]. cbn [orb] in Hs. apply negb_true_iff, Nat.eqb_neq in Hs. apply HG1.
          apply orb_false_iff in Es as [-> _]. destruct (Hjs eq_refl) as [-> Ekt]. assert (Hcb : c <= b) by (apply (Hb2 b t); rewrite <- Ekt; left).
          eapply (kids_above h p a pre None kids path c b t kv); [done|by apply Hpc|done|lia|done].
        + cbn. exists n. split; [done|]. cbn in Hlf. done. }
    destruct (bytes_compare pre sp) eqn:Ecmp.
    + apply Hgo; [|exact Hl]. intros Hs. destruct (Hun Hs) as [[x ->] ->]. apply cmp_eq in Ecmp. rewrite drop_app in Hsp. apply prefix_app. exists y. by rewrite Hsp, Ecmp.
    + destruct seen.
      * apply Hgo; [done|exact Hl].
      * destruct (pushParent h path false par stack) as [st0| |] eqn:Ep; cbn [obind] in Hl; [|done..]. injection Hl as <- <-.
        apply (pushParent_id _ _ _ _ _ _ Hpar) in Ep as ->. apply Pnone. intros [k v] Hin.
        destruct (Hun eq_refl) as [[x ->] ->]. apply elem_leaves in Hin as [[la Hla]|(b & t & Hbt & Hin)]; [done|]. destruct (rep_leaves_kid _ _ _ _ _ _ _ _ _ _ Hr0 Hbt Hin) as [z ->]. cbn [fst].
        destruct (bytes_geb _ _) eqn:E; [|done]. apply geb_klt in E. exfalso. apply E. rewrite <- !app_assoc. apply klt_app.
        rewrite drop_app in Hsp. rewrite Hsp. apply klt_diff; [by apply cmp_lt|done].
    + destruct seen; [apply Hgo; [done|exact Hl]|]. refine (Ppar _ _ (Pall _) Hl). intros [k v] Hin. apply HG1. cbn [fst].
      destruct (Hun eq_refl) as [[x ->] ->]. apply elem_leaves in Hin as [[la Hla]|(b & t & Hbt & Hin)]; [done|]. destruct (rep_leaves_kid _ _ _ _ _ _ _ _ _ _ Hr0 Hbt Hin) as [z ->].
      apply geb_klt. rewrite <- !app_assoc, klt_app. rewrite drop_app in Hsp. rewrite Hsp. apply cmp_gt in Ecmp. intros Hk'.
      destruct Hspy as [Hspe| ->]; [eapply klt_anti; [exact Hk'|]; apply klt_diff; [done|lia]|]. rewrite app_nil_r in Hk'. eapply klt_anti; [exact Hk'|]. by apply klt_ext.
Qed.

Lemma above_unterm_sub (L L' : list (bytes * V)) : L' `sublist_of` L -> unterm L' `sublist_of` unterm L.
Proof. unfold unterm. induction 1; cbn; by constructor. Qed.
Lemma ss_sublist {A} (R : A -> A -> Prop) l l' : l' `sublist_of` l -> StronglySorted R l -> StronglySorted R l'.
Proof.
  induction 1 as [|x l1 l2 Hs IH|x l1 l2 Hs IH]; intros Hss; [done| |]; apply StronglySorted_inv in Hss as [Hss Hx]; [|auto].
  constructor; [auto|]. rewrite Forall_forall in *. intros y Hy. apply Hx. by eapply elem_of_submseteq, sublist_submseteq.
Qed.
Lemma contents_pfL (t : art) (m : gmap (list nat) V) : contents t m -> prefix_free m -> pfL (leaves t).
Proof.
  intros Hc Hp k k' v v' H1 H2 Hpre. apply Hc in H1 as (k0 & -> & E1). apply Hc in H2 as (k0' & -> & E2). rewrite !getKey_snoc in Hpre.
  by rewrite (Hp k0 k0').
Qed.
Lemma contents_narrowL (t : art) (m : gmap (list nat) V) : contents t m -> narrow m -> narrowL (leaves t).
Proof.
  intros Hc Hp q. destruct (Hp q) as (bs & Hl & Hb). exists bs. split; [done|]. intros b k v Hin Hpre. apply Hc in Hin as (k0 & -> & E). eapply Hb; eauto.
Qed.
Lemma fp_next (h : heap V) p t : rep h p t -> NoDup (fp t) -> length (fp t) <= h_next h.
Proof. intros Hr Hnd. by eapply fp_bound. Qed.

(** [overshoot t path k]: the key k of t, with its terminator, is below an inner node all of whose keys may be
    returned: an inner child of a node whose compressed path is not empty and agrees with the bound. *)
Definition overshoot (t : art) (path k : bytes) : Prop :=
  exists q a pre lf kids b t' v, under [] t q (Art a pre lf kids) /\ pre <> [] /\ (q ++ pre) `prefix_of` path /\
    (b, t') ∈ kids /\ ~ holder t' /\ (k, v) ∈ leaves t'.
(** SeekLowerBound, when it returns. *)
Lemma rep_lower (h : heap V) (t : art) (m : gmap (list nat) V) k it : rep h [] t -> NoDup (fp t) -> contents t m ->
  neat m k -> prefix_free m -> narrow m -> seekLowerBound h (newLowerIter (aroot t)) k = Ok it ->
  exists l, yields (lowerNext h) it l /\ ascending l /\ (forall k' v, (k', v) ∈ l -> m !! k' = Some v) /\
    (forall k' v, m !! k' = Some v -> ~ klt k' k -> (k', v) ∈ l) /\
    (forall k' v, (k', v) ∈ l -> ~ klt (k' ++ [dollar]) (k ++ [dollar]) \/ overshoot t (k ++ [dollar]) (k' ++ [dollar])).
Proof.
  intros Hr Hnd Hc Hhi Hpf Hnar E.
  pose proof (contents_ordered _ _ _ _ Hr Hc (prefix_free_orderly _ Hpf)) as Hord. pose proof (fp_next _ _ _ Hr Hnd) as Hfp.
  set (G := fun kv : bytes * V => bytes_geb kv.1 (k ++ [dollar]) = true \/ overshoot t (k ++ [dollar]) kv.1).
  assert (Hcore : exists nd ts, it = mkLI nd (ents_of ts) /\ stk h ts /\ above_of (k ++ [dollar]) (leaves t) (sl ts) /\ length (sfp ts) <= length (fp t) /\
    forall kv, kv ∈ sl ts -> kv ∈ leaves t -> G kv).
  { unfold seekLowerBound in E. destruct k as [|c k].
    - injection E as <-. exists (Some (aroot t)), [t]. split; [done|]. split; [repeat constructor; eauto|]. unfold sl, sfp. cbn [List.map concat]. rewrite !app_nil_r.
      split; [apply above_refl|]. split; [done|]. intros [k' v] _ Hin. left. cbn [fst app]. apply geb_klt.
      destruct (rep_leaves _ _ _ _ _ Hr Hin) as [_ (k0 & -> & _)]. apply Hc in Hin as (k1 & E & Hm). apply app_inj_tail in E as [-> _].
      apply (klt_term k1 []); [intros c x ->; apply Nat.lt_le_incl; eapply Hhi; eauto|]. destruct k1; intros [].
    - cbn zeta in E. unfold newLowerIter in E. cbn [li_node] in E. unfold getTreeKey in E. remember ((c :: k) ++ [dollar]) as path eqn:Ep.
      destruct (lowerLoop _ _ _ _ _ _ _ _) as [[st cl]| |] eqn:El; cbn [obind] in E; [|done..]. injection E as <-.
      apply (lowerLoop_spec h path G t _ []) in El as (ts & -> & H1 & H2 & H3 & H4); [|done|by eapply contents_pfL|by eapply contents_narrowL| | |intros _; split; [apply prefix_nil|done]|done|done].
      + rewrite app_nil_r. eauto 10.
      + intros kv Hg. by left.
      + intros q a pre lf kids b t' [k' v] Hu Hpre Hq Hbt Hht Hin. right. exists q, a, pre, lf, kids, b, t', v. done. }
  destruct Hcore as (nd & ts & -> & Hs & [Hsub Hab] & Hlen & HG). exists (unterm (sl ts)). split; [apply lowerNext_yields; [done|lia]|]. split; [|split; [|split]].
  - apply unterm_ascending. by eapply ss_sublist.
  - intros k' v Hin. apply (contents_unterm _ _ _ _ Hc). eapply elem_of_submseteq; [exact Hin|]. by apply sublist_submseteq, above_unterm_sub.
  - intros k' v Hm Hk. apply unterm_elem. exists (k' ++ [dollar]). rewrite getKey_snoc. split; [|done]. apply Hab; [apply Hc; eauto|].
    apply geb_klt. cbn [fst]. apply klt_term; [intros c x ->; apply Nat.lt_le_incl; eapply Hhi; eauto|done].
  - intros k' v Hin. apply unterm_elem in Hin as (k0 & Hin & ->).
    assert (Hin' : (k0, v) ∈ leaves t) by (by eapply elem_of_submseteq, sublist_submseteq, Hsub).
    destruct (rep_leaves _ _ _ _ _ Hr Hin') as [_ (k1 & -> & _)]. rewrite getKey_snoc.
    destruct (HG _ Hin Hin') as [Hg|Hg]; [left; by apply geb_klt in Hg|by right].
Qed.
Lemma holds_lower (b : bool) (h : heap V) (a : addr) (m : gmap (list nat) V) k it : holds b h a m -> m <> ∅ ->
  neat m k -> prefix_free m -> narrow m -> seekLowerBound h (newLowerIter a) k = Ok it ->
  exists l, yields (lowerNext h) it l /\ ascending l /\ (forall k' v, (k', v) ∈ l -> m !! k' = Some v) /\
    (forall k' v, m !! k' = Some v -> ~ klt k' k -> (k', v) ∈ l).
Proof.
  intros Hh Hne Hhi Hpf Hnar E. destruct Hh as [-> Hph|t Hr Hnd -> Hc]; [done|].
  destruct (rep_lower h t m k it Hr Hnd Hc Hhi Hpf Hnar E) as (l & H1 & H2 & H3 & H4 & _). exists l. done.
Qed.
(** SeekLowerBound with the empty key. *)
Lemma holds_lower_all (b : bool) (h : heap V) (a : addr) (m : gmap (list nat) V) : holds b h a m -> m <> ∅ ->
  exists it l, seekLowerBound h (newLowerIter a) [] = Ok it /\ yields (lowerNext h) it l /\ l ≡ₚ map_to_list m /\ (orderly m -> ascending l).
Proof.
  intros Hh Hne. destruct Hh as [-> Hph|t Hr Hnd -> Hc]; [done|]. pose proof (fp_next _ _ _ Hr Hnd) as Hfp.
  exists (mkLI (Some (aroot t)) (ents_of [t])), (unterm (sl [t])). split; [done|].
  assert (E : sl [t] = leaves t) by (unfold sl; cbn [List.map concat]; by rewrite app_nil_r).
  split; [apply lowerNext_yields; [repeat constructor; eauto|unfold sfp; cbn [List.map concat]; rewrite app_nil_r; done]|]. rewrite E. split.
  - apply NoDup_Permutation; [eapply NoDup_fmap_1, unterm_NoDup, Hr|apply NoDup_map_to_list|]. intros [k v]. rewrite elem_of_map_to_list. by apply contents_unterm.
  - intros Hhi. apply unterm_ascending. by eapply contents_ordered.
Qed.
End ReadLow.
