(** The abstraction relation: a region of memory represents an adaptive radix tree, which holds a list of
    (stored key, value) pairs. *)
From Verif Require Export EncRead Spec Erase.
From stdpp Require Export list.
Local Open Scope nat_scope.

(** ** Common prefixes *)
Fixpoint lcp (x y : bytes) : nat :=
  match x, y with
  | a :: x', b :: y' => if Nat.eqb a b then S (lcp x' y') else 0
  | _, _ => 0
  end.
Lemma lcp_le_l x y : lcp x y <= length x.
Proof. revert y. induction x as [|a x IH]; intros [|b y]; cbn; [lia..|]. destruct (Nat.eqb a b); [specialize (IH y)|]; lia. Qed.
Lemma lcp_comm x y : lcp x y = lcp y x.
Proof.
  revert y. induction x as [|a x IH]; intros [|b y]; cbn; [done..|]. rewrite (Nat.eqb_sym a b). destruct (Nat.eqb b a); [by rewrite IH|done].
Qed.
Lemma lcp_le_r x y : lcp x y <= length y.
Proof. rewrite lcp_comm. apply lcp_le_l. Qed.
Lemma lcp_take x y : take (lcp x y) x = take (lcp x y) y.
Proof.
  revert y. induction x as [|a x IH]; intros [|b y]; cbn; [done..|].
  destruct (Nat.eqb_spec a b); [|done]. cbn. subst. by rewrite IH.
Qed.
Lemma lcp_ne x y : lcp x y < length x -> lcp x y < length y -> x !! lcp x y <> y !! lcp x y.
Proof.
  revert y. induction x as [|a x IH]; intros [|b y]; cbn; [lia..|].
  destruct (Nat.eqb_spec a b); cbn; intros; [apply IH; lia|congruence].
Qed.
Lemma lcp_app x y z : lcp (x ++ y) (x ++ z) = length x + lcp y z.
Proof. induction x as [|a x IH]; cbn; [done|]. rewrite Nat.eqb_refl. by rewrite IH. Qed.
Lemma lcp_full x y : lcp x y = length x <-> x `prefix_of` y.
Proof.
  revert y. induction x as [|a x IH]; intros y; cbn.
  - split; [intros _; apply prefix_nil|done].
  - destruct y as [|b y].
    + split; [done|]. intros H. by apply prefix_nil_not in H.
    + destruct (Nat.eqb_spec a b) as [->|Hne].
      * split; [intros [= H]; apply prefix_cons, IH, H|intros H%prefix_cons_inv_2; f_equal; by apply IH].
      * split; [done|]. intros H. by apply prefix_cons_inv_1 in H.
Qed.
Lemma lcp_take_l m x y : m <= lcp x y -> lcp (take m x) y = m.
Proof.
  revert m y. induction x as [|a x IH]; intros m y H; cbn in H.
  - replace m with 0 by lia. done.
  - destruct m as [|m]; [done|]. destruct y as [|b y]; [lia|]. cbn. destruct (Nat.eqb a b); [|lia]. f_equal. apply IH. lia.
Qed.
Lemma lcp_take_l' m x y : lcp (take m x) y = m `min` lcp x y.
Proof.
  revert m y. induction x as [|a x IH]; intros m y.
  - rewrite take_nil. cbn. lia.
  - destruct m as [|m]; [done|]. destruct y as [|b y]; cbn; [lia|]. destruct (Nat.eqb a b); [|lia]. rewrite IH. lia.
Qed.

Lemma cmp_loop_spec fuel : forall idx maxCmp partial key depth, maxCmp - idx <= fuel -> maxCmp <= length partial ->
  maxCmp <= length key - depth -> idx <= maxCmp ->
  cmp_loop fuel idx maxCmp partial key depth = Ok (idx + ((maxCmp - idx) `min` lcp (drop idx partial) (drop (depth + idx) key))).
Proof.
  induction fuel as [|fuel IH]; intros idx maxCmp partial key depth Hf Hp Hk Hi; cbn [cmp_loop].
  - f_equal. lia.
  - destruct (Nat.ltb_spec idx maxCmp); [|f_equal; lia].
    destruct (lookup_lt_is_Some_2 partial idx ltac:(lia)) as [a Ha].
    destruct (lookup_lt_is_Some_2 key (depth + idx) ltac:(lia)) as [b Hb].
    rewrite Ha, Hb. rewrite (drop_S _ _ _ Ha), (drop_S _ _ _ Hb). cbn [lcp].
    destruct (Nat.eqb a b); [|f_equal; lia].
    rewrite IH by lia. f_equal. rewrite Nat.add_1_r, Nat.add_succ_r. lia.
Qed.
Lemma cmp_loop_0 m partial key depth : m <= length partial -> m <= length key - depth ->
  cmp_loop m 0 m partial key depth = Ok (m `min` lcp partial (drop depth key)).
Proof. intros. rewrite cmp_loop_spec by lia. cbn. by rewrite Nat.sub_0_r, Nat.add_0_r, drop_0. Qed.

Lemma has_prefix_true s p : has_prefix s p = true <-> p `prefix_of` s.
Proof.
  revert s. induction p as [|a p IH]; intros s.
  - destruct s; cbn; (split; [intros _; apply prefix_nil|done]).
  - destruct s as [|b s]; cbn.
    + split; [done|]. intros H. by apply prefix_nil_not in H.
    + destruct (Nat.eqb_spec a b) as [->|Hne].
      * rewrite IH. split; [apply prefix_cons|apply prefix_cons_inv_2].
      * split; [done|]. intros H. by apply prefix_cons_inv_1 in H.
Qed.
Lemma hasPrefix_has s p : hasPrefix s p = has_prefix s p.
Proof. by destruct p, s. Qed.
Lemma bytes_compare_eq x y : bytes_compare x y = Eq <-> x = y.
Proof.
  revert y. induction x as [|a x IH]; intros [|b y]; cbn; [done..|].
  destruct (Nat.ltb_spec a b); [split; [done|intros [= -> _]; lia]|].
  destruct (Nat.ltb_spec b a); [split; [done|intros [= -> _]; lia]|].
  rewrite IH. split; [intros ->; f_equal; lia|by intros [= _ ->]].
Qed.
Lemma bytes_eqb_true x y : bytes_eqb x y = true <-> x = y.
Proof. unfold bytes_eqb. rewrite <- bytes_compare_eq. by destruct (bytes_compare x y). Qed.
Lemma leafMatches_true x y : leafMatches x y = true <-> x = y.
Proof.
  unfold leafMatches. destruct (Nat.eqb_spec (length x) (length y)) as [E|E]; cbn.
  - apply bytes_eqb_true.
  - split; [done|]. intros ->. done.
Qed.
Lemma leafMatches_false x y : leafMatches x y = false <-> x <> y.
Proof. rewrite <- leafMatches_true. by destruct (leafMatches x y). Qed.
Lemma getKey_snoc k c : getKey (k ++ [c]) = k.
Proof. unfold getKey. rewrite app_length. cbn. rewrite Nat.add_sub. apply take_app. Qed.

(** ** Abstract trees *)
(** The sets of keys the tree is proved to be a map on: no key followed by the terminator is a prefix of
    another key followed by the terminator.  The keys without '$' are such a set; where a statement does
    not name another one, it is this one. *)
Class KeyDom := { kd : bytes -> Prop; kd_bytes : forall k, kd k -> is_bytes k;
  kd_free : forall k k', kd k -> kd k' -> (k ++ [dollar]) `prefix_of` (k' ++ [dollar]) -> k = k' }.
Lemma valid_bytes k : valid_key k -> is_bytes k.
Proof. intros Hv. eapply Forall_impl; [exact Hv|]. cbn. tauto. Qed.
Lemma valid_free k k' : valid_key k -> valid_key k' -> (k ++ [dollar]) `prefix_of` (k' ++ [dollar]) -> k = k'.
Proof.
  intros Hk Hv [x E]. rewrite <- app_assoc in E. cbn in E. destruct x as [|y x _] using rev_ind.
  - by apply app_inj_tail in E as [-> _].
  - exfalso. replace (k ++ dollar :: x ++ [y]) with ((k ++ dollar :: x) ++ [y]) in E by (by rewrite <- app_assoc).
    apply app_inj_tail in E as [-> _]. unfold valid_key in Hv. rewrite Forall_app, Forall_cons in Hv. naive_solver.
Qed.
Global Instance valid_dom : KeyDom | 1000 := {| kd := valid_key; kd_bytes := valid_bytes; kd_free := valid_free |}.

Section Art.
Context {V : Type} `{GoZero V} {D : KeyDom}.

Notation lentry := (option (addr * bytes * V)).

(** address, compressed prefix, own leaf, children *)
Inductive art := Art (a : addr) (pre : bytes) (lf : lentry) (kids : list (nat * art)).

Lemma art_ind' (P : art -> Prop) :
  (forall a pre lf kids, (forall b t, (b, t) ∈ kids -> P t) -> P (Art a pre lf kids)) -> forall t, P t.
Proof.
  intros Hs. fix IH 1. intros [a pre lf kids]. apply Hs.
  assert (HF : Forall (fun bt => P (snd bt)) kids).
  { induction kids as [|[b t] kids IHk]; constructor; [apply IH|exact IHk]. }
  intros b t Hin. rewrite Forall_forall in HF. apply (HF (b, t) Hin).
Qed.

Definition aroot (t : art) : addr := match t with Art a _ _ _ => a end.
Definition lfa (lf : lentry) : list addr := match lf with Some (la, _, _) => [la] | None => [] end.
Definition lfl (lf : lentry) : list (bytes * V) := match lf with Some (_, k, v) => [(k, v)] | None => [] end.
Definition ents (kids : list (nat * art)) : entries := (fun bt => (bt.1, aroot bt.2)) <$> kids.

Fixpoint fp (t : art) : list addr :=
  match t with Art a _ lf kids => a :: lfa lf ++ concat (List.map (fun bt => fp (snd bt)) kids) end.
Fixpoint leaves (t : art) : list (bytes * V) :=
  match t with Art _ _ lf kids => lfl lf ++ concat (List.map (fun bt => leaves (snd bt)) kids) end.
Definition kfp (kids : list (nat * art)) : list addr := concat (List.map (fun bt => fp (snd bt)) kids).
Definition kleaves (kids : list (nat * art)) : list (bytes * V) := concat (List.map (fun bt => leaves (snd bt)) kids).

Lemma fp_eq a pre lf kids : fp (Art a pre lf kids) = a :: lfa lf ++ kfp kids.
Proof. done. Qed.
Lemma leaves_eq a pre lf kids : leaves (Art a pre lf kids) = lfl lf ++ kleaves kids.
Proof. done. Qed.
Lemma kfp_app k1 k2 : kfp (k1 ++ k2) = kfp k1 ++ kfp k2.
Proof. unfold kfp. by rewrite List.map_app, concat_app. Qed.
Lemma kfp_cons b t ks : kfp ((b, t) :: ks) = fp t ++ kfp ks.
Proof. done. Qed.
Lemma kleaves_app k1 k2 : kleaves (k1 ++ k2) = kleaves k1 ++ kleaves k2.
Proof. unfold kleaves. by rewrite List.map_app, concat_app. Qed.
Lemma kleaves_cons b t ks : kleaves ((b, t) :: ks) = leaves t ++ kleaves ks.
Proof. done. Qed.
Lemma elem_kfp x ks : x ∈ kfp ks <-> exists b t, (b, t) ∈ ks /\ x ∈ fp t.
Proof.
  induction ks as [|[b t] ks IH].
  - split; [intros Hx; by apply elem_of_nil in Hx|]. intros (b & t & Hx & _). by apply elem_of_nil in Hx.
  - rewrite kfp_cons, elem_of_app, IH. setoid_rewrite elem_of_cons. split.
    + intros [Hx|(b' & t' & ? & ?)]; eauto.
    + intros (b' & t' & [[= -> ->]|?] & ?); eauto.
Qed.
Lemma elem_kleaves x ks : x ∈ kleaves ks <-> exists b t, (b, t) ∈ ks /\ x ∈ leaves t.
Proof.
  induction ks as [|[b t] ks IH].
  - split; [intros Hx; by apply elem_of_nil in Hx|]. intros (b & t & Hx & _). by apply elem_of_nil in Hx.
  - rewrite kleaves_cons, elem_of_app, IH. setoid_rewrite elem_of_cons. split.
    + intros [Hx|(b' & t' & ? & ?)]; eauto.
    + intros (b' & t' & [[= -> ->]|?] & ?); eauto.
Qed.
Lemma elem_leaves k v a pre lf kids :
  (k, v) ∈ leaves (Art a pre lf kids) <-> (exists la, lf = Some (la, k, v)) \/ exists b t, (b, t) ∈ kids /\ (k, v) ∈ leaves t.
Proof.
  rewrite leaves_eq, elem_of_app, elem_kleaves. apply or_iff_compat_r. destruct lf as [[[la k'] v']|]; cbn.
  - rewrite elem_of_list_singleton. split; [intros [= -> ->]; eauto|intros [la' [= -> -> ->]]; done].
  - split; [intros Hx; by apply elem_of_nil in Hx|by intros [? ?]].
Qed.
Lemma ents_app k1 k2 : ents (k1 ++ k2) = ents k1 ++ ents k2.
Proof. apply fmap_app. Qed.
Lemma elem_ents b a kids : (b, a) ∈ ents kids <-> exists t, (b, t) ∈ kids /\ aroot t = a.
Proof.
  unfold ents. rewrite elem_of_list_fmap. split.
  - intros ([b' t'] & [= -> ->] & ?). eauto.
  - intros (t & ? & <-). by exists (b, t).
Qed.
Lemma ents_fst kids : (ents kids).*1 = kids.*1.
Proof. unfold ents. rewrite <- list_fmap_compose. done. Qed.
Lemma ents_split kids l1 l2 : ents kids = l1 ++ l2 -> exists k1 k2, kids = k1 ++ k2 /\ ents k1 = l1 /\ ents k2 = l2.
Proof. intros E. apply fmap_app_inv in E as (k1 & k2 & -> & -> & ->). eauto. Qed.
Lemma ents_split_cons kids l1 b c l2 : ents kids = l1 ++ (b, c) :: l2 ->
  exists k1 t k2, kids = k1 ++ (b, t) :: k2 /\ ents k1 = l1 /\ ents k2 = l2 /\ aroot t = c.
Proof.
  intros E. apply ents_split in E as (k1 & k2 & -> & E1 & E2). destruct k2 as [|[b' t] k2]; [done|].
  cbn in E2. injection E2 as -> <- <-. eauto 10.
Qed.

(** ** Representation *)

(** The leaf pointed to by a node. *)
Definition leafrep (h : heap V) (o : option addr) (lf : lentry) : Prop :=
  match lf with
  | None => o = None
  | Some (la, k, v) => o = Some la /\ la < h_next h /\ exists l, h_leaves h !! la = Some l /\ l_key l = k /\ l_val l = v
  end.

(** [leafok h c P]: cell c is a node; if it has a leaf, then that leaf's key satisfies P. *)
Definition leafok (h : heap V) (c : addr) (P : bytes -> Prop) : Prop :=
  c < h_next h /\ exists n, h_nodes h !! c = Some n /\
    match n_leaf n with
    | None => True
    | Some la => la < h_next h /\ exists l, h_leaves h !! la = Some l /\ P (l_key l)
    end.

(** Keys as they are stored: a key followed by the terminator. *)
Definition stored (k : bytes) : Prop := exists k0, k = k0 ++ [dollar] /\ kd k0.
(** A path inside the tree: some key goes on after it. *)
Definition opn (q : bytes) : Prop := exists b x, stored (q ++ b :: x).

(** A node of a kind never has fewer children than this: with one child less it is replaced by a smaller kind. *)
Definition low_of (k : kind) : nat := match k with K4 => 0 | K16 => 4 | K48 => 13 | K256 => 38 end.

Inductive rep (h : heap V) : bytes -> art -> Prop :=
| rep_node p a pre lf kids n :
    h_nodes h !! a = Some n -> a < h_next h ->
    enc n (ents kids) -> length (n_partial n) = maxPrefixLen ->
    leafrep h (n_leaf n) lf ->
    (kids <> [] -> n_plen n = length pre /\
       take (maxPrefixLen `min` length pre) (n_partial n) = take maxPrefixLen pre /\ opn (p ++ pre)) ->
    (kids = [] -> exists la k v, lf = Some (la, k, v) /\ p `prefix_of` k) ->
    (forall la k v, lf = Some (la, k, v) -> stored k /\ (kids <> [] -> k = p ++ pre ++ [dollar] /\ dollar ∉ kids.*1)) ->
    (forall c, c ∈ stale n -> exists b, b ∈ kids.*1 /\ leafok h c (fun k => (p ++ pre ++ [b]) `prefix_of` k)) ->
    (forall b t, (b, t) ∈ kids -> rep h (p ++ pre ++ [b]) t) ->
    low_of (n_kind n) <= length kids ->
    rep h p (Art a pre lf kids).

Lemma rep_inv h p a pre lf kids : rep h p (Art a pre lf kids) -> exists n,
    h_nodes h !! a = Some n /\ a < h_next h /\
    enc n (ents kids) /\ length (n_partial n) = maxPrefixLen /\
    leafrep h (n_leaf n) lf /\
    (kids <> [] -> n_plen n = length pre /\
       take (maxPrefixLen `min` length pre) (n_partial n) = take maxPrefixLen pre /\ opn (p ++ pre)) /\
    (kids = [] -> exists la k v, lf = Some (la, k, v) /\ p `prefix_of` k) /\
    (forall la k v, lf = Some (la, k, v) -> stored k /\ (kids <> [] -> k = p ++ pre ++ [dollar] /\ dollar ∉ kids.*1)) /\
    (forall c, c ∈ stale n -> exists b, b ∈ kids.*1 /\ leafok h c (fun k => (p ++ pre ++ [b]) `prefix_of` k)) /\
    (forall b t, (b, t) ∈ kids -> rep h (p ++ pre ++ [b]) t).
Proof. intros Hr. inversion Hr; subst. eauto 20. Qed.

Lemma rep_low h p a pre lf kids n : rep h p (Art a pre lf kids) -> h_nodes h !! a = Some n -> low_of (n_kind n) <= length kids.
Proof. intros Hr Hn. inversion Hr; subst. by assert (n0 = n) as -> by congruence. Qed.

Lemma app3_prefix {A} (p q : list A) r k : (p ++ q ++ r) `prefix_of` k -> (p ++ q) `prefix_of` k.
Proof. intros [x ->]. exists (r ++ x). by rewrite <- !app_assoc. Qed.

(** Every stored key extends the path to its node. *)
Lemma rep_leaves h p t k v : rep h p t -> (k, v) ∈ leaves t -> p `prefix_of` k /\ stored k.
Proof.
  revert p. induction t as [a pre lf kids IH] using art_ind'. intros p Hr Hin.
  apply rep_inv in Hr as (n & Hn & Hlt & He & Hpl & Hlf & Hk1 & Hk2 & Hk3 & Hst & Hkids).
  apply elem_leaves in Hin as [[la ->]|(b & t & Hbt & Hin)].
  - destruct (Hk3 _ _ _ eq_refl) as [Hs Hk]. split; [|done]. destruct kids as [|kd kids].
    + destruct (Hk2 eq_refl) as (? & ? & ? & [= <- <- <-] & ?). done.
    + destruct (Hk ltac:(done)) as [-> _]. by apply prefix_app_r.
  - destruct (IH b t Hbt _ (Hkids b t Hbt) Hin) as [Hp Hs]. split; [|done]. destruct Hp as [x ->].
    rewrite <- app_assoc. by apply prefix_app_r.
Qed.
Lemma rep_leaves_kid h p a pre lf kids b t k v : rep h p (Art a pre lf kids) -> (b, t) ∈ kids -> (k, v) ∈ leaves t ->
  (p ++ pre ++ [b]) `prefix_of` k.
Proof.
  intros Hr Hbt Hin. apply rep_inv in Hr as (n & Hn & Hlt & He & Hpl & Hlf & Hk1 & Hk2 & Hk3 & Hst & Hkids).
  by apply (rep_leaves h _ t k v (Hkids b t Hbt) Hin).
Qed.
Lemma rep_root h p t : rep h p t -> exists n, h_nodes h !! aroot t = Some n /\ aroot t < h_next h.
Proof. destruct t. intros Hr%rep_inv. destruct Hr as (n & Hn & Hlt & _). eauto. Qed.
Lemma rep_fp h p t x : rep h p t -> x ∈ fp t -> x < h_next h.
Proof.
  revert p. induction t as [a pre lf kids IH] using art_ind'. intros p Hr Hin.
  apply rep_inv in Hr as (n & Hn & Hlt & He & Hpl & Hlf & Hk1 & Hk2 & Hk3 & Hst & Hkids).
  rewrite fp_eq, elem_of_cons, elem_of_app, elem_kfp in Hin. destruct Hin as [->|[Hin|(b & t & Hbt & Hin)]].
  - done.
  - destruct lf as [[[la k] v]|]; [|by apply elem_of_nil in Hin]. apply elem_of_list_singleton in Hin as ->. apply Hlf.
  - eapply IH; [done|by apply Hkids|done].
Qed.
Lemma fp_aroot t : aroot t ∈ fp t.
Proof. destruct t. left. Qed.

(** The root of a represented tree has a leaf whose key extends the path. *)
Lemma rep_leafok h p t : rep h p t -> leafok h (aroot t) (fun k => p `prefix_of` k).
Proof.
  destruct t as [a pre lf kids]. intros Hr. pose proof (fun k v => rep_leaves h p _ k v Hr) as HL.
  apply rep_inv in Hr as (n & Hn & Hlt & He & Hpl & Hlf & Hk1 & Hk2 & Hk3 & Hst & Hkids).
  split; [done|]. exists n. split; [done|]. destruct lf as [[[la k] v]|]; cbn in Hlf.
  - destruct Hlf as (-> & ? & l & ? & <- & <-). split; [done|]. exists l. split; [done|].
    apply (HL _ (l_val l)). apply elem_leaves. eauto.
  - by rewrite Hlf.
Qed.
Lemma leafok_weaken h c (P Q : bytes -> Prop) : (forall k, P k -> Q k) -> leafok h c P -> leafok h c Q.
Proof.
  intros HPQ (? & n & ? & Hl). split; [done|]. exists n. split; [done|]. destruct (n_leaf n); [|done].
  destruct Hl as (? & l & ? & ?). eauto.
Qed.
(** All cells in the children array of a represented node. *)
Lemma rep_children h p a pre lf kids n c : rep h p (Art a pre lf kids) -> h_nodes h !! a = Some n -> Some c ∈ n_children n ->
  exists b, b ∈ kids.*1 /\ leafok h c (fun k => (p ++ pre ++ [b]) `prefix_of` k).
Proof.
  intros Hr Hn0 Hc. apply rep_inv in Hr as (n' & Hn & Hlt & He & Hpl & Hlf & Hk1 & Hk2 & Hk3 & Hst & Hkids).
  assert (n' = n) as -> by congruence.
  destruct (enc_children_elem _ _ _ He Hc) as [Hin|Hin]; [|by apply Hst].
  apply elem_of_list_fmap in Hin as ([b a'] & -> & Hin). apply elem_ents in Hin as (t & Ht & <-). cbn.
  exists b. split; [|by apply rep_leafok, Hkids]. apply elem_of_list_fmap. by exists (b, t).
Qed.

(** Frame: a represented tree stays represented when its cells do not change and the leaf keys of nodes are
    preserved. *)
Definition same_cell (h h' : heap V) (x : addr) : Prop :=
  h_nodes h' !! x = h_nodes h !! x /\ h_leaves h' !! x = h_leaves h !! x.
Definition leaf_ext (h h' : heap V) : Prop := forall c P, leafok h c P -> leafok h' c P.

Lemma leafrep_frame h h' o lf : h_next h <= h_next h' -> (forall x, x ∈ lfa lf -> same_cell h h' x) -> leafrep h o lf -> leafrep h' o lf.
Proof.
  intros Hn Hs. destruct lf as [[[la k] v]|]; [|done]. intros (-> & ? & l & Hl & ?). split; [done|]. split; [lia|].
  exists l. destruct (Hs la ltac:(cbn; set_solver)) as [_ ->]. done.
Qed.
Lemma rep_frame h h' p t : h_next h <= h_next h' -> (forall x, x ∈ fp t -> same_cell h h' x) -> leaf_ext h h' ->
  rep h p t -> rep h' p t.
Proof.
  intros Hnx Hs Hext. revert p Hs. induction t as [a pre lf kids IH] using art_ind'. intros p Hs Hr.
  pose proof (fun n => rep_low _ _ _ _ _ _ n Hr) as Hlow.
  apply rep_inv in Hr as (n & Hn & Hlt & He & Hpl & Hlf & Hk1 & Hk2 & Hk3 & Hst & Hkids).
  apply (rep_node h' p a pre lf kids n); [..|by apply Hlow]; try done.
  - destruct (Hs a ltac:(left)) as [-> _]. done.
  - lia.
  - eapply leafrep_frame; [done| |done]. intros x Hx. apply Hs. rewrite fp_eq. set_solver.
  - intros c Hc. destruct (Hst c Hc) as (b & Hb & Hok). exists b. split; [done|]. by apply Hext.
  - intros b t Hbt. apply (IH b t Hbt); [|by apply Hkids]. intros x Hx. apply Hs. rewrite fp_eq.
    apply elem_of_cons. right. apply elem_of_app. right. apply elem_kfp. eauto.
Qed.

(** Distinct children hold distinct keys. *)
Lemma rep_sorted h p a pre lf kids : rep h p (Art a pre lf kids) -> NoDup kids.*1.
Proof.
  intros Hr. apply rep_inv in Hr as (n & Hn & Hlt & He & _). rewrite <- ents_fst. apply ssorted_NoDup. apply He.
Qed.
Lemma prefix_inj_byte (q : bytes) b b' k : (q ++ [b]) `prefix_of` k -> (q ++ [b']) `prefix_of` k -> b = b'.
Proof.
  intros [x ->] [y E]. rewrite <- !app_assoc in E. apply app_inv_head in E. cbn in E. congruence.
Qed.
Lemma prefix_inj_byte' (p q : bytes) b b' k : (p ++ q ++ [b]) `prefix_of` k -> (p ++ q ++ [b']) `prefix_of` k -> b = b'.
Proof. rewrite !app_assoc. apply prefix_inj_byte. Qed.
Lemma kids_unique (kids : list (nat * art)) b t t' : NoDup kids.*1 -> (b, t) ∈ kids -> (b, t') ∈ kids -> t = t'.
Proof.
  induction kids as [|[b0 t0] kids IH]; intros Hnd H1 H2; [by apply elem_of_nil in H1|].
  cbn in Hnd. apply NoDup_cons in Hnd as [Hni Hnd]. apply elem_of_cons in H1, H2.
  destruct H1 as [[= -> ->]|H1], H2 as [E|H2].
  - congruence.
  - exfalso. apply Hni. apply elem_of_list_fmap. by exists (b0, t').
  - exfalso. apply Hni. apply elem_of_list_fmap. exists (b, t). split; [cbn; congruence|done].
  - by apply IH.
Qed.
Lemma rep_leaves_fun h p t k v v' : rep h p t -> (k, v) ∈ leaves t -> (k, v') ∈ leaves t -> v = v'.
Proof.
  revert p. induction t as [a pre lf kids IH] using art_ind'. intros p Hr H1 H2.
  pose proof (rep_sorted _ _ _ _ _ _ Hr) as Hnd. pose proof Hr as Hr0.
  apply rep_inv in Hr as (n & Hn & Hlt & He & Hpl & Hlf & Hk1 & Hk2 & Hk3 & Hst & Hkids).
  apply elem_leaves in H1 as [[la ->]|(b & t & Hbt & Hin)], H2 as [[la' E]|(b' & t' & Hbt' & Hin')].
  - congruence.
  - exfalso. destruct (Hk3 _ _ _ eq_refl) as [_ Hk]. destruct Hk as [-> Hd]; [by intros ->; apply elem_of_nil in Hbt'|].
    pose proof (rep_leaves_kid _ _ _ _ _ _ _ _ _ _ Hr0 Hbt' Hin') as Hp. apply Hd.
    rewrite (prefix_inj_byte' p pre dollar b' (p ++ pre ++ [dollar])); [|done|done].
    apply elem_of_list_fmap. by exists (b', t').
  - exfalso. subst lf. destruct (Hk3 _ _ _ eq_refl) as [_ Hk]. destruct Hk as [-> Hd]; [by intros ->; apply elem_of_nil in Hbt|].
    pose proof (rep_leaves_kid _ _ _ _ _ _ _ _ _ _ Hr0 Hbt Hin) as Hp. apply Hd.
    rewrite (prefix_inj_byte' p pre dollar b (p ++ pre ++ [dollar])); [|done|done].
    apply elem_of_list_fmap. by exists (b, t).
  - assert (b = b').
    { eapply prefix_inj_byte'; [exact (rep_leaves_kid _ _ _ _ _ _ _ _ _ _ Hr0 Hbt Hin)|exact (rep_leaves_kid _ _ _ _ _ _ _ _ _ _ Hr0 Hbt' Hin')]. }
    subst b'. rewrite <- (kids_unique _ _ _ _ Hnd Hbt Hbt') in Hin'. exact (IH b t Hbt _ (Hkids b t Hbt) Hin Hin').
Qed.

(** Whether a node is a leaf holder. *)
Lemma rep_isLeaf h p a pre lf kids n : rep h p (Art a pre lf kids) -> h_nodes h !! a = Some n ->
  isLeafN n = bool_decide (kids = []).
Proof.
  intros Hr Hn0. apply rep_inv in Hr as (n' & Hn & Hlt & He & Hpl & Hlf & Hk1 & Hk2 & Hk3 & Hst & Hkids).
  assert (n' = n) as -> by congruence. unfold isLeafN.
  pose proof He as [Hso Hby Hnc Hkl Hcl Hca Hsh]. rewrite Hnc.
  destruct kids as [|kd kids].
  - destruct (Hk2 eq_refl) as (la & k & v & -> & _). destruct Hlf as (-> & _). done.
  - rewrite bool_decide_false by done. destruct lf as [[[la k] v]|]; [|cbn in Hlf; rewrite Hlf; by rewrite andb_false_r].
    destruct Hlf as (-> & _). rewrite andb_true_r.
    destruct (Hk3 _ _ _ eq_refl) as [_ Hk]. destruct Hk as [_ Hd]; [done|].
    apply Nat.eqb_neq. intros E. pose proof (enc_len256 _ _ He) as Hle. apply u8_0 in E as [E|E]; [done| |done].
    assert (Hin : dollar ∈ (kd :: kids).*1); [|done].
    assert (Hsub : seq 0 256 ⊆ (kd :: kids).*1).
    { assert (Hs : (kd :: kids).*1 ≡ₚ seq 0 256).
      { apply submseteq_Permutation_length_eq.
        - rewrite seq_length, <- ents_fst, fmap_length. done.
        - apply NoDup_submseteq; [rewrite <- ents_fst; by apply ssorted_NoDup|].
          intros x Hx. rewrite <- ents_fst in Hx. apply elem_of_list_fmap in Hx as (e & -> & Hx). rewrite Forall_forall in Hby.
          apply Hby in Hx. apply elem_of_seq. lia. }
      intros x Hx. by rewrite Hs. }
    apply Hsub. apply elem_of_seq. unfold dollar. lia.
Qed.

(** Stored keys are prefix-free. *)
Lemma stored_prefix_free k k' : stored k -> stored k' -> k `prefix_of` k' -> k = k'.
Proof. intros (k0 & -> & Hk) (k1 & -> & Hk1) Hp. f_equal. by apply kd_free. Qed.
Lemma opn_app p q : opn (p ++ q) -> opn p.
Proof.
  intros (b & x & Hs). destruct q as [|c q]; [rewrite app_nil_r in Hs; by exists b, x|].
  exists c, (q ++ b :: x). by rewrite <- app_assoc in Hs.
Qed.
(** a stored key does not end on a path *)
Lemma stored_not_opn k : stored k -> ~ opn k.
Proof.
  intros Hs (b & x & Hs'). assert (E : k = k ++ b :: x) by (apply stored_prefix_free; [done..|by exists (b :: x)]).
  apply (f_equal length) in E. rewrite app_length in E. cbn in E. lia.
Qed.
Lemma stored_opn_prefix k q : stored k -> kd q -> (q ++ [dollar]) `prefix_of` k -> k = q ++ [dollar].
Proof. intros Hk Hq Hp. symmetry. apply stored_prefix_free; [by exists q|done..]. Qed.
End Art.
Global Arguments art V : clear implicits.
