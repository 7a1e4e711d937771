(** Walk and LongestPrefix on memories without left-over pointers. *)
From Verif Require Export SpecWalk ReadLow Clean.
Local Open Scope nat_scope.

(** ** Children arrays without left-over pointers *)
Lemma cl_stale n : cl n -> stale n = [].
Proof.
  intros Hc. unfold stale. destruct (sortedkind (n_kind n)) eqn:Ek; [|done]. assert (Hk : sk n = true) by (unfold sk; by destruct (n_kind n)).
  destruct (Hc Hk) as [_ Hi]. destruct (omap id (drop (n_nch n) (n_children n))) as [|x l] eqn:E; [done|]. exfalso.
  assert (Hin : x ∈ omap id (drop (n_nch n) (n_children n))) by (rewrite E; left). apply elem_of_list_omap in Hin as ([y|] & Hy & Ey); [|done].
  cbn in Ey. injection Ey as ->. apply elem_of_list_lookup in Hy as [i Hy]. rewrite lookup_drop in Hy. apply Hi in Hy. lia.
Qed.
Lemma omap_all_none {A} (l : list (option A)) : omap id l = [] -> forall i x, l !! i <> Some (Some x).
Proof.
  intros E i x Hl. assert (Hin : x ∈ omap id l) by (apply elem_of_list_omap; exists (Some x); split; [by eapply elem_of_list_lookup_2|done]).
  rewrite E in Hin. by apply elem_of_nil in Hin.
Qed.
Lemma enc_sorted_clean n es : enc n es -> sortedkind (n_kind n) = true -> stale n = [] -> omap id (n_children n) = es.*2.
Proof.
  intros He Hk Hst. destruct (enc_sorted_dec _ _ He Hk) as (R & R' & HK & HC & HR & Hcap & Hst' & Hn). rewrite HC, omap_app, <- Hst', Hst, app_nil_r.
  clear. induction es as [|[b a] es IH]; [done|]. cbn in *. by rewrite IH.
Qed.
Lemma omap_NoDup {A} (l : list (option A)) : (forall i j x, l !! i = Some (Some x) -> l !! j = Some (Some x) -> i = j) -> NoDup (omap id l).
Proof.
  induction l as [|[y|] l IH]; intros Hl; [constructor| |].
  - cbn. constructor.
    + intros ([z|] & Hz & Ez)%elem_of_list_omap; [|done]. cbn in Ez. injection Ez as ->. apply elem_of_list_lookup in Hz as [i Hi].
      specialize (Hl 0 (S i) y eq_refl Hi). done.
    + apply IH. intros i j x Hi Hj. specialize (Hl (S i) (S j) x Hi Hj). lia.
  - cbn. apply IH. intros i j x Hi Hj. specialize (Hl (S i) (S j) x Hi Hj). lia.
Qed.
Lemma enc_clean_perm n es : enc n es -> stale n = [] -> NoDup es.*2 -> omap id (n_children n) ≡ₚ es.*2.
Proof.
  intros He Hst Hnd. destruct (sortedkind (n_kind n)) eqn:Hsk; [by rewrite (enc_sorted_clean _ _ He Hsk Hst)|].
  apply NoDup_Permutation; [|done|].
  - apply omap_NoDup. intros i j x Hi Hj. pose proof He as [Hso Hby Hnc Hkl Hcl Hca Hsh]. destruct (n_kind n) eqn:Hk; [done|done| |].
    + destruct Hsh as (Hs1 & Hs2 & Hs3). destruct (Hs3 i x Hi) as [b Hb]. destruct (Hs3 j x Hj) as [b' Hb'].
      destruct (enc48_bytes n es b i He Hk Hb) as (a & Ha & Hia). destruct (enc48_bytes n es b' j He Hk Hb') as (a' & Ha' & Hia').
      assert (a = x) as -> by congruence. assert (a' = x) as -> by congruence. apply alook_Some_elem in Ha, Ha'.
      assert (b = b') as ->; [|congruence].
      apply elem_of_list_lookup in Ha as [u Hu]. apply elem_of_list_lookup in Ha' as [w Hw].
      assert (u = w) as ->; [|congruence]. apply (NoDup_lookup es.*2 u w x Hnd); rewrite list_lookup_fmap; [by rewrite Hu|by rewrite Hw].
    + pose proof (lookup_lt_Some _ _ _ Hi). pose proof (lookup_lt_Some _ _ _ Hj). rewrite Hcl in *. cbn in *.
      rewrite Hsh in Hi, Hj by done. injection Hi as Hi. injection Hj as Hj. apply alook_Some_elem in Hi, Hj.
      apply elem_of_list_lookup in Hi as [u Hu]. apply elem_of_list_lookup in Hj as [w Hw].
      assert (u = w) as ->; [|congruence]. apply (NoDup_lookup es.*2 u w x Hnd); rewrite list_lookup_fmap; [by rewrite Hu|by rewrite Hw].
  - intros c. split.
    + intros ([y|] & Hy & Ey)%elem_of_list_omap; [|done]. cbn in Ey. injection Ey as ->. destruct (enc_children_elem _ _ _ He Hy) as [|Hin]; [done|].
      rewrite Hst in Hin. by apply elem_of_nil in Hin.
    + intros ([b c'] & -> & Hin)%elem_of_list_fmap. apply elem_of_list_omap. exists (Some c'). split; [|done]. by eapply enc_elem_children.
Qed.

Section ReadWalk.
Context {V : Type} `{GoZero V}.
Notation art := (art V).
Notation kmap := (gmap (list nat) V).

(** ** Walk *)
Section Visit.
Context {A : Type} (fn : bytes -> V -> A -> A * bool).
Lemma visit_app l1 l2 acc : visit fn (l1 ++ l2) acc = let '(acc, stop) := visit fn l1 acc in if stop then (acc, true) else visit fn l2 acc.
Proof.
  revert acc. induction l1 as [|k l1 IH]; intros acc; cbn; [done|]. destruct (fn k go_zero acc) as [acc' []]; [done|]. apply IH.
Qed.
End Visit.
(** The keys of the nodes without children. *)
Fixpoint tips (t : art) : list bytes :=
  match t with
  | Art _ _ lf [] => getKey <$> (lfl lf).*1
  | Art _ _ _ kids => concat (List.map (fun bt => tips (snd bt)) kids)
  end.
Definition ktips (kids : list (nat * art)) : list bytes := concat (List.map (fun bt => tips (snd bt)) kids).
Lemma tips_eq a pre lf kids : kids <> [] -> tips (Art a pre lf kids) = ktips kids.
Proof. by destruct kids. Qed.

Lemma elem_kids_fp a b (t : art) kids lf pre : (b, t) ∈ kids -> fp t `sublist_of` fp (Art a pre lf kids).
Proof.
  intros Hin. rewrite fp_eq. apply sublist_cons, sublist_inserts_l. unfold kfp. apply elem_of_list_split in Hin as (k1 & k2 & ->).
  rewrite List.map_app, concat_app. apply sublist_inserts_l. cbn. by apply sublist_inserts_r.
Qed.
Lemma kid_fp_lt a b (t : art) kids lf pre : (b, t) ∈ kids -> length (fp t) < length (fp (Art a pre lf kids)).
Proof.
  intros Hin. rewrite fp_eq. cbn [length]. rewrite app_length. assert (length (fp t) <= length (kfp kids)); [|lia].
  apply elem_of_list_split in Hin as (k1 & k2 & ->). rewrite kfp_app, kfp_cons, !app_length. lia.
Qed.
Lemma roots_NoDup a pre lf (kids : list (nat * art)) : NoDup (fp (Art a pre lf kids)) -> NoDup (ents kids).*2.
Proof.
  rewrite fp_eq. intros [_ Hnd]%NoDup_cons. apply NoDup_app in Hnd as (_ & _ & Hnd). unfold ents. rewrite <- list_fmap_compose.
  induction kids as [|[b t] kids IH]; [constructor|]. rewrite kfp_cons in Hnd. apply NoDup_app in Hnd as (_ & Hd & Hnd). cbn. constructor; [|auto].
  intros ([b' t'] & E & Hin)%elem_of_list_fmap. cbn in E. apply (Hd (aroot t)); [apply fp_aroot|]. apply elem_kfp. exists b', t'. split; [done|].
  rewrite E. apply fp_aroot.
Qed.

Definition rec_loop {A} (fn : bytes -> V -> A -> A * bool) fuel h :=
  fix loop (chs : list (option addr)) (acc : A) : outcome (A * bool) :=
               match chs with
               | [] => Ok (acc, false)
               | None :: chs' => loop chs' acc
               | Some c :: chs' =>
                   let? '(acc, stop) := recursiveWalk fn fuel h c acc in
                   if (stop : bool) then Ok (acc, true) else loop chs' acc
               end.
Lemma rec_loop_omap {A} (fn : bytes -> V -> A -> A * bool) fuel h chs acc :
  rec_loop fn fuel h chs acc = rec_loop fn fuel h (Some <$> omap id chs) acc.
Proof.
  revert acc. induction chs as [|[c|] chs IH]; intros acc; [done| |apply IH]. cbn. destruct (recursiveWalk fn fuel h c acc) as [[acc' []]| |]; cbn; [done|apply IH|done..].
Qed.

Lemma walk_rep (h : heap V) : clean h -> forall fuel p t, rep h p t -> NoDup (fp t) -> length (fp t) <= fuel ->
  exists l, l ≡ₚ tips t /\ forall A (fn : bytes -> V -> A -> A * bool) acc, recursiveWalk fn fuel h (aroot t) acc = Ok (visit fn l acc).
Proof.
  intros Hcl. induction fuel as [|fuel IH]; intros p [a pre lf kids] Hr Hnd Hf; [rewrite fp_eq in Hf; cbn in Hf; lia|].
  pose proof Hr as Hr0. apply rep_inv in Hr as (n & Hn & Hlt & He & Hpl & Hlf & Hk1 & Hk2 & Hk3 & Hst & Hkids).
  destruct (Hcl _ _ Hn) as [Hcn _]. pose proof (cl_stale _ Hcn) as Hsn. pose proof (enc_clean_perm _ _ He Hsn (roots_NoDup _ _ _ _ Hnd)) as Hperm.
  destruct kids as [|kd0 kids0] eqn:Ekids.
  - destruct (Hk2 eq_refl) as (la & k & v & -> & _). cbn in Hlf. destruct Hlf as (Hlf & _ & l & Hl & <- & <-).
    exists [getKey (l_key l)]. split; [done|]. intros A fn acc. cbn [recursiveWalk aroot]. rewrite Hn.
    assert (Hleaf : isLeafN n = true) by (unfold isLeafN; rewrite (enc_nch _ _ He), Hlf; done). rewrite Hleaf, Hlf, Hl. cbn [obind visit].
    destruct (fn (getKey (l_key l)) go_zero acc) as [acc' []]; [done|].
    change (rec_loop fn fuel h (n_children n) acc' = Ok (acc', false)). rewrite rec_loop_omap. cbn in Hperm.
    symmetry in Hperm. apply Permutation_nil in Hperm. rewrite Hperm. done.
  - rewrite <- Ekids in *. assert (Hne : kids <> []) by (by rewrite Ekids). clear Ekids kd0 kids0.
    assert (Hleaf : isLeafN n = false) by (rewrite (rep_isLeaf _ _ _ _ _ _ _ Hr0 Hn); by rewrite bool_decide_eq_false).
    assert (Hp2 : exists kids', omap id (n_children n) = (fun bt => aroot (snd bt)) <$> kids' /\ kids ≡ₚ kids').
    { symmetry in Hperm. unfold ents in Hperm. rewrite <- list_fmap_compose in Hperm. symmetry in Hperm. apply (Permutation_map_inv (fun bt : nat * art => aroot (snd bt))) in Hperm as (kids' & -> & Hp).
      by exists kids'. }
    destruct Hp2 as (kids' & Ecs & Hp).
    assert (Hloop : forall ks, (forall bt, bt ∈ ks -> bt ∈ kids) -> exists l, l ≡ₚ ktips ks /\
      forall A (fn : bytes -> V -> A -> A * bool) acc, rec_loop fn fuel h (Some <$> ((fun bt => aroot (snd bt)) <$> ks)) acc = Ok (visit fn l acc)).
    { induction ks as [|[b t] ks IHc]; intros Hcs; [by exists []|]. destruct IHc as (ls & HF & Hls); [intros; apply Hcs; by right|].
      specialize (Hcs (b, t) ltac:(left)). destruct (IH _ t (Hkids b t Hcs)) as (l & Hl & Hw).
      - eapply NoDup_sublist; [by eapply elem_kids_fp|done]. 
      - pose proof (kid_fp_lt a b t kids lf pre Hcs). lia.
      - exists (l ++ ls). split; [by rewrite Hl, HF|]. intros A fn acc. cbn. rewrite Hw. cbn [obind].
        rewrite visit_app. destruct (visit fn l acc) as [acc' []]; [done|]. apply Hls. }
    destruct (Hloop kids') as (l & Hl & Hw); [intros bt; by rewrite Hp|].
    exists l. split.
    + rewrite tips_eq by done. rewrite Hl. unfold ktips. rewrite <- !flat_map_concat_map. by rewrite Hp.
    + intros A fn acc. cbn [recursiveWalk aroot]. rewrite Hn, Hleaf. cbn [obind].
      change (rec_loop fn fuel h (n_children n) acc = Ok (visit fn l acc)). rewrite rec_loop_omap, Ecs. apply Hw.
Qed.

Lemma tips_sub (t : art) : tips t `sublist_of` getKey <$> (leaves t).*1.
Proof.
  induction t as [a pre lf kids IH] using art_ind'. destruct (decide (kids = [])) as [->|Hne].
  - cbn [tips]. rewrite leaves_eq. unfold kleaves. cbn [List.map concat]. by rewrite app_nil_r.
  - rewrite tips_eq by done. rewrite leaves_eq, fmap_app, fmap_app. apply sublist_inserts_l. unfold ktips, kleaves. clear Hne.
    induction kids as [|[b t] kids IHk]; [done|]. cbn [List.map concat]. rewrite !fmap_app. apply sublist_app; [apply (IH b); left|].
    apply IHk. intros b' t' Hbt. apply (IH b'). by right.
Qed.
Lemma tips_max (h : heap V) (t : art) k v : forall p, rep h p t -> (k ++ [dollar], v) ∈ leaves t ->
  (forall k' v', (k' ++ [dollar], v') ∈ leaves t -> k `prefix_of` k' -> k' = k) -> k ∈ tips t.
Proof.
  induction t as [a pre lf kids IH] using art_ind'. intros p Hr Hin Hmax. pose proof Hr as Hr0.
  apply rep_inv in Hr as (n & Hn & Hlt & He & Hpl & Hlf & Hk1 & Hk2 & Hk3 & Hst & Hkids).
  destruct (decide (kids = [])) as [->|Hne].
  - apply elem_leaves in Hin as [[la ->]|(b & t & Hbt & _)]; [|by apply elem_of_nil in Hbt]. cbn. rewrite getKey_snoc. left.
  - rewrite tips_eq by done. apply elem_leaves in Hin as [[la ->]|(b & t & Hbt & Hin)].
    + exfalso. destruct (Hk3 _ _ _ eq_refl) as [_ Hd]. destruct (Hd Hne) as [E Hd']. rewrite app_assoc in E. apply app_inj_tail in E as [-> _].
      destruct kids as [|[b t] kids]; [done|]. destruct (rep_nonempty _ _ _ (Hkids b t ltac:(left))) as (k' & v' & Hk').
      pose proof (rep_leaves_kid _ _ _ _ _ _ _ _ _ _ Hr0 ltac:(left) Hk') as [x Ex]. destruct (rep_stored _ _ _ _ _ (Hkids b t ltac:(left)) Hk') as (k0 & -> & _).
      assert (Hb : b <> dollar) by (intros ->; apply Hd'; left).
      destruct x as [|y x _] using rev_ind.
      * rewrite app_nil_r, app_assoc in Ex. apply app_inj_tail in Ex as [_ Ex]. congruence.
      * rewrite app_assoc in Ex. apply app_inj_tail in Ex as [-> _]. specialize (Hmax (p ++ pre ++ [b] ++ x) v').
        rewrite <- !app_assoc in Hk', Hmax. rewrite <- !app_assoc in Hmax.
        assert (E : p ++ pre ++ [b] ++ x = p ++ pre).
        { apply Hmax; [|exists ([b] ++ x); by rewrite <- !app_assoc]. apply elem_leaves. right. exists b, t. split; [left|done]. }
        apply (f_equal length) in E. rewrite !app_length in E. cbn in E. lia.
    + unfold ktips. apply elem_of_list_In, in_concat. exists (tips t). split; [apply in_map_iff; exists (b, t); split; [done|by apply elem_of_list_In]|].
      apply elem_of_list_In. eapply IH; [done|by apply Hkids|done|]. intros k' v' Hk'. apply Hmax with v'. apply elem_leaves. eauto.
Qed.
Lemma holds_walk b (h : heap V) a m : holds b h a m -> m <> ∅ -> clean h -> exists l, NoDup l /\ (forall k, k ∈ l -> is_Some (m !! k)) /\
  (forall k, is_Some (m !! k) -> (forall k', is_Some (m !! k') -> k `prefix_of` k' -> k' = k) -> k ∈ l) /\
  forall A (fn : bytes -> V -> A -> A * bool) sz mx acc, treeWalk fn h (mkT a sz mx) acc = Ok (visit fn l acc).1.
Proof.
  intros Hh Hne Hcl. destruct (holds_ne _ _ _ _ Hh Hne) as (t & Hr & Hnd & -> & Hc).
  destruct (walk_rep h Hcl (walk_fuel h) [] t Hr Hnd) as (l & Hp & Hw); [by eapply fp_walk|]. exists l. split_and!.
  - rewrite Hp. eapply NoDup_sublist; [apply tips_sub|]. pose proof (unterm_NoDup _ _ _ Hr) as Hu. unfold unterm in Hu. rewrite <- list_fmap_compose in Hu. rewrite <- list_fmap_compose. exact Hu.
  - intros k Hk. rewrite Hp in Hk. eapply elem_of_submseteq in Hk; [|apply sublist_submseteq, tips_sub].
    apply elem_of_list_fmap in Hk as (k1 & -> & Hk). apply elem_of_list_fmap in Hk as ([k2 v] & -> & Hk). apply Hc in Hk as (k0 & E & Hm). cbn [fst] in *. rewrite E, getKey_snoc. by rewrite Hm.
  - intros k [v Hk] Hmax. rewrite Hp. eapply tips_max; [exact Hr|apply Hc; eauto|]. intros k' v' Hk'. apply Hc in Hk' as (k0 & E & Hm).
    apply app_inj_tail in E as [-> _]. apply Hmax. by rewrite Hm.
  - intros A fn sz mx acc. unfold treeWalk. cbn [r_root]. rewrite Hw. cbn [obind]. by destruct (visit fn l acc).
Qed.

(** ** LongestPrefix *)
Definition alf (t : art) : option (addr * bytes * V) := match t with Art _ _ lf _ => lf end.
Definition akids (t : art) : list (nat * art) := match t with Art _ _ _ kids => kids end.
Definition lmatch (q : bytes) (t : art) : option addr :=
  match alf t with Some (la, k, _) => if has_prefix q (getKey k) then Some la else None | None => None end.
Definition upd_last (last o : option addr) : option addr := match o with Some la => Some la | None => last end.
Lemma rep_node (h : heap V) p (t : art) : rep h p t -> exists n, h_nodes h !! aroot t = Some n /\ leafrep h (n_leaf n) (alf t).
Proof. destruct t as [a pre lf kids]. intros Hr. apply rep_inv in Hr as (n & Hn & Hlt & He & Hpl & Hlf & _). eauto. Qed.
Lemma lpScan_omap (h : heap V) key last chs : lpScan h key last chs = lpScan h key last (Some <$> omap id chs).
Proof.
  revert last. induction chs as [|[c|] chs IH]; intros last; [done| |apply IH]. cbn. repeat case_match; try done; apply IH.
Qed.
Lemma lpScan_kids (h : heap V) key (ks : list (nat * art)) last : (forall b t, (b, t) ∈ ks -> exists p, rep h p t) ->
  lpScan h key last (Some <$> (ents ks).*2) = Ok (foldl (fun l bt => upd_last l (lmatch (getKey key) (snd bt))) last ks).
Proof.
  revert last. induction ks as [|[b t] ks IH]; intros last Hk; [done|]. destruct (Hk b t ltac:(left)) as [p Hr].
  destruct (rep_node _ _ _ Hr) as (n & Hn & Hl). cbn [ents fmap list_fmap snd lpScan foldl]. cbn. rewrite Hn. unfold lmatch.
  destruct (alf t) as [[[la k] v]|]; cbn in Hl.
  - destruct Hl as (-> & _ & l & -> & -> & _). rewrite IH by (intros; eapply Hk; right; eauto). by destruct (has_prefix _ _).
  - rewrite Hl. apply IH. intros; eapply Hk; right; eauto.
Qed.
Lemma foldl_last {X} (g : X -> option addr) (ks : list X) last :
  (foldl (fun l x => upd_last l (g x)) last ks = last /\ forall x, x ∈ ks -> g x = None) \/
  exists k1 x k2 y, ks = k1 ++ x :: k2 /\ g x = Some y /\ foldl (fun l x => upd_last l (g x)) last ks = Some y /\ forall x', x' ∈ k2 -> g x' = None.
Proof.
  induction ks as [|x ks IH] using rev_ind; [left; split; [done|]; intros x Hx; by apply elem_of_nil in Hx|]. rewrite foldl_snoc. cbn beta.
  destruct (g x) as [y|] eqn:Eg.
  - right. exists ks, x, [], y. split_and!; [done..|]. intros x' Hx'. by apply elem_of_nil in Hx'.
  - cbn [upd_last]. destruct IH as [[E Hn]|(k1 & x1 & k2 & y & -> & Hy & E & Hn)].
    + left. split; [done|]. intros x' [?| ->%elem_of_list_singleton]%elem_of_app; [auto|done].
    + right. exists k1, x1, (k2 ++ [x]), y. split_and!; [by rewrite <- app_assoc|done|done|]. intros x' [?| ->%elem_of_list_singleton]%elem_of_app; [auto|done].
Qed.

(** The result of the loop from a node: the leaf of the longest stored key on the way, or what it was before. *)
Definition lp_best (h : heap V) (q : bytes) (t : art) (r : option addr) : Prop :=
  exists la l k v, r = Some la /\ h_leaves h !! la = Some l /\ l_key l = k ++ [dollar] /\ l_val l = v /\ (k ++ [dollar], v) ∈ leaves t /\ k `prefix_of` q /\
    forall k' v', (k' ++ [dollar], v') ∈ leaves t -> k' `prefix_of` q -> length k' <= length k.
Definition lp_none (q : bytes) (t : art) : Prop := forall k v, (k ++ [dollar], v) ∈ leaves t -> ~ k `prefix_of` q.
Lemma lmatch_Some (h : heap V) q p (t : art) la : rep h p t -> lmatch q t = Some la ->
  exists l k, h_leaves h !! la = Some l /\ l_key l = k ++ [dollar] /\ (k ++ [dollar], l_val l) ∈ leaves t /\ k `prefix_of` q.
Proof.
  intros Hr. destruct (rep_node _ _ _ Hr) as (n & Hn & Hl). unfold lmatch. destruct t as [a pre lf kids]. cbn [alf] in *.
  destruct lf as [[[la' k] v]|]; [|done]. destruct (has_prefix q (getKey k)) eqn:E; [|done]. intros [= ->]. cbn in Hl. destruct Hl as (_ & _ & l & Hl & <- & <-).
  assert (Hin : (l_key l, l_val l) ∈ leaves (Art a pre (Some (la, l_key l, l_val l)) kids)) by (apply elem_leaves; eauto).
  destruct (rep_stored _ _ _ _ _ Hr Hin) as (k0 & Ek & _). exists l, k0. rewrite Ek in *. rewrite getKey_snoc in E. by apply has_prefix_true in E.
Qed.
Lemma holder_leaf (h : heap V) q p (t : art) k v : rep h p t -> akids t = [] -> (k ++ [dollar], v) ∈ leaves t -> k `prefix_of` q -> is_Some (lmatch q t).
Proof.
  destruct t as [a pre lf kids]. cbn [akids]. intros Hr -> Hin Hk. apply elem_leaves in Hin as [[la ->]|(b & t & Hbt & _)]; [|by apply elem_of_nil in Hbt].
  unfold lmatch. cbn [alf]. rewrite getKey_snoc. apply has_prefix_true in Hk as ->. eauto.
Qed.
Lemma kid_match (h : heap V) p a pre lf kids b t k v q : rep h p (Art a pre lf kids) -> (b, t) ∈ kids -> (k ++ [dollar], v) ∈ leaves t -> k `prefix_of` q ->
  (b = dollar /\ k = p ++ pre) \/ (b <> dollar \/ True) /\ (p ++ pre ++ [b]) `prefix_of` k.
Proof.
  intros Hr Hbt Hin Hk. pose proof (rep_leaves_kid _ _ _ _ _ _ _ _ _ _ Hr Hbt Hin) as [x Ex]. destruct x as [|y x _] using rev_ind.
  - left. rewrite app_nil_r, app_assoc in Ex. apply app_inj_tail in Ex as [-> E]. done.
  - right. split; [by right|]. rewrite app_assoc in Ex. apply app_inj_tail in Ex as [-> _]. by exists x.
Qed.

Lemma dollar_holder (h : heap V) p a pre lf kids t : rep h p (Art a pre lf kids) -> (dollar, t) ∈ kids -> akids t = [].
Proof.
  intros Hr Hbt. apply rep_inv in Hr as (n & Hn & Hlt & He & Hpl & Hlf & Hk1 & Hk2 & Hk3 & Hst & Hkids). specialize (Hkids _ _ Hbt).
  destruct t as [a' pre' lf' kids']. cbn [akids]. destruct (decide (kids' = [])) as [|Hne]; [done|exfalso].
  apply rep_inv in Hkids as (n' & _ & _ & _ & _ & _ & Hk1' & _). destruct (Hk1' Hne) as (_ & _ & Hnd). apply opn_nodollar in Hnd. unfold nodollar in Hnd.
  rewrite Forall_forall in Hnd. apply (Hnd dollar); [|done]. rewrite !elem_of_app. left. right. right. left.
Qed.

(** [orderly_along], for the leaves of a tree *)
Definition ordL (q : bytes) (L : list (bytes * V)) : Prop :=
  forall k c x v v', (k ++ [dollar], v) ∈ L -> ((k ++ c :: x) ++ [dollar], v') ∈ L -> (k ++ c :: x) `prefix_of` q -> dollar <= c.
Lemma lpLoop_spec (h : heap V) q : clean h -> is_bytes q -> forall fuel p (t : art) last, rep h p t -> narrowL (leaves t) -> ordL q (leaves t) ->
  1 <= fuel -> length (getTreeKey q) + 1 <= fuel + length p ->
  exists r, lpLoop fuel h (aroot t) (getTreeKey q) (length p) last = Ok r /\
    (lp_best h q t r \/ (r = last /\ (akids t = [] \/ lp_none q t))).
Proof.
  intros Hcl Hqb. set (key := getTreeKey q). assert (Hgk : getKey key = q) by apply getKey_snoc. assert (Hkb : is_bytes key) by (by apply getTreeKey_bytes).
  induction fuel as [|fuel IH]; intros p [a pre lf kids] last Hr Hnl Hol Hf1 Hf; [lia|]. cbn [lpLoop aroot akids]. pose proof Hr as Hr0.
  apply rep_inv in Hr as (n & Hn & Hlt & He & Hpl & Hlf & Hk1 & Hk2 & Hk3 & Hst & Hkids). rewrite Hn.
  assert (Hpc : exists r, (if Nat.ltb 0 (n_plen n) then checkPrefix (n_partial n) (n_plen n) key (length p) else Ok 0) = Ok r /\
              (kids <> [] -> (p ++ pre) `prefix_of` key -> Nat.ltb 0 (n_plen n) && negb (Nat.eqb r (maxPrefixLen `min` n_plen n)) = false)).
  { destruct (Nat.ltb_spec 0 (n_plen n)).
    - rewrite checkPrefix_ok by done. eexists. split; [done|]. intros Hne [x ->]. destruct (Hk1 Hne) as (Hpn & Hpt & Hnd). cbn [andb].
      assert (Hck : Ok (n_plen n `min` maxPrefixLen `min` (length ((p ++ pre) ++ x) - length p) `min` lcp (n_partial n) (drop (length p) ((p ++ pre) ++ x)))
              = Ok (maxPrefixLen `min` length pre)).
      { rewrite <- checkPrefix_ok by done. rewrite <- app_assoc, Hpn. by apply checkPrefix_match. }
      injection Hck as Hck. rewrite Hck. by rewrite Hpn, Nat.eqb_refl.
    - exists 0. done. }
  destruct Hpc as (r & -> & Hrr). cbn [obind].
  assert (Hsk : sortedkind (n_kind n) = true) by (by eapply narrow_kind).
  pose proof (cl_stale _ (proj1 (Hcl _ _ Hn))) as Hstn.
  pose proof (enc_sorted_clean _ _ He Hsk Hstn) as Hch.
  (* every match in the subtree goes through p ++ pre *)
  assert (Hthru : kids <> [] -> forall k v, (k ++ [dollar], v) ∈ leaves (Art a pre lf kids) -> k `prefix_of` q -> (p ++ pre) `prefix_of` k).
  { intros Hne k v Hin Hk. apply elem_leaves in Hin as [[la El]|(b & t & Hbt & Hin)].
    - destruct (Hk3 _ _ _ El) as [_ Hd]. destruct (Hd Hne) as [E _]. rewrite app_assoc in E. apply app_inj_tail in E as [-> _]. done.
    - destruct (kid_match _ _ _ _ _ _ _ _ _ _ q Hr0 Hbt Hin Hk) as [[_ ->]|[_ Hp]]; [done|]. etrans; [|exact Hp]. exists [b]. by rewrite <- app_assoc. }
  assert (Hqk : forall x, x `prefix_of` q -> x `prefix_of` key) by (intros x [y ->]; exists (y ++ [dollar]); unfold key, getTreeKey; by rewrite app_assoc).
  destruct (Nat.ltb 0 (n_plen n) && negb (Nat.eqb r (maxPrefixLen `min` n_plen n))) eqn:Eb.
  { exists last. split; [done|]. right. split; [done|]. destruct (decide (kids = [])) as [|Hne]; [by left|right]. intros k v Hin Hk.
    assert (true = false); [|done]. apply Hrr; [done|]. apply Hqk. etrans; [by eapply Hthru|done]. }
  destruct (key !! (length p + n_plen n)) as [c|] eqn:Ec.
  2:{ exists last. split; [done|]. right. split; [done|]. destruct (decide (kids = [])) as [|Hne]; [by left|right]. intros k v Hin Hk.
      destruct (Hk1 Hne) as (Hpn & _). apply lookup_ge_None in Ec. rewrite Hpn in Ec. unfold key, getTreeKey in Ec. rewrite app_length in Ec. cbn in Ec.
      pose proof (prefix_length _ _ (Hthru Hne k v Hin Hk)) as H1. pose proof (prefix_length _ _ Hk). rewrite app_length in H1. lia. }
  assert (Hcb : c < 256). { unfold is_bytes in Hkb. rewrite Forall_forall in Hkb. by eapply Hkb, elem_of_list_lookup_2. }
  (* the own leaf *)
  set (last1 := upd_last last (lmatch q (Art a pre lf kids))).
  assert (E1 : match n_leaf n with
               | None => Ok last
               | Some la => match h_leaves h !! la with
                            | None => Panic
                            | Some l => Ok (if has_prefix (getKey key) (getKey (l_key l)) then Some la else last) end
               end = Ok last1).
  { unfold last1, lmatch. cbn [alf]. destruct lf as [[[la k] v]|]; cbn in Hlf.
    - destruct Hlf as (-> & _ & l & -> & -> & _). rewrite Hgk. by destruct (has_prefix _ _).
    - by rewrite Hlf. }
  rewrite E1. cbn [obind]. clear E1. rewrite lpScan_omap, Hch, lpScan_kids by eauto. cbn [obind]. rewrite Hgk.
  set (last2 := foldl _ last1 kids).
  destruct (decide (kids = [])) as [->|Hne].
  { rewrite (findChild_None n [] c) by done. cbn [obind]. exists last2. split; [done|]. unfold last2. cbn [foldl]. unfold last1.
    destruct (lmatch q (Art a pre lf [])) as [la|] eqn:El; [|right; cbn; auto]. left. destruct (lmatch_Some _ _ _ _ _ Hr0 El) as (l & k & Hl & Hlk & Hin & Hkq).
    exists la, l, k, (l_val l). split_and!; [done..|]. intros k' v' Hin' _. pose proof Hin as Hi. apply elem_leaves in Hi as [[la1 ->]|(b & t & Hbt & _)]; [|by apply elem_of_nil in Hbt].
    apply elem_leaves in Hin' as [[la2 [= _ E _]]|(b & t & Hbt & _)]; [|by apply elem_of_nil in Hbt]. apply app_inj_tail in E as [-> _]. done. }
  destruct (Hk1 Hne) as (Hpn & Hpt & Hnd). rewrite Hpn in Ec. 
  (* a match below continues with the byte c *)
  assert (Hcont : forall b t k v, (b, t) ∈ kids -> (k ++ [dollar], v) ∈ leaves t -> k `prefix_of` q -> b <> c -> b = dollar /\ k = p ++ pre).
  { intros b t k v Hbt Hin Hk Hbc. destruct (kid_match _ _ _ _ _ _ _ _ _ _ q Hr0 Hbt Hin Hk) as [?|[_ Hp]]; [done|]. exfalso. apply Hbc.
    assert (Hp' : p ++ pre ++ [b] `prefix_of` key) by (apply Hqk; by etrans). destruct Hp' as [x Ex]. rewrite Ex in Ec.
    rewrite <- !app_assoc in Ec. rewrite lookup_app_r in Ec by lia. rewrite lookup_app_r in Ec by lia.
    replace (length p + length pre - length p - length pre) with 0 in Ec by lia. cbn in Ec. congruence. }
  assert (Hkl : forall b t, (b, t) ∈ kids -> forall x, x ∈ leaves t -> x ∈ leaves (Art a pre lf kids)).
  { intros b t Hbt [k v] Hin. apply elem_leaves. eauto. }
  assert (Hown : forall k v la, lf = Some (la, k ++ [dollar], v) -> k = p ++ pre).
  { intros k v la El. destruct (Hk3 _ _ _ El) as [_ Hd]. destruct (Hd Hne) as [E _]. rewrite app_assoc in E. by apply app_inj_tail in E as [-> _]. }
  (* what the scan leaves when no kid at c matters *)
  assert (Hscan : (forall b t k v, (b, t) ∈ kids -> b = c -> (k ++ [dollar], v) ∈ leaves t -> ~ k `prefix_of` q) ->
     lp_best h q (Art a pre lf kids) last2 \/ (last2 = last /\ lp_none q (Art a pre lf kids))).
  { intros Hno. assert (Hall : forall k v, (k ++ [dollar], v) ∈ leaves (Art a pre lf kids) -> k `prefix_of` q -> k = p ++ pre).
    { intros k v Hin Hk. apply elem_leaves in Hin as [[la El]|(b & t & Hbt & Hin)]; [by eapply Hown|]. destruct (decide (b = c)) as [->|Hbc]; [by destruct (Hno c t k v)|].
      by destruct (Hcont b t k v Hbt Hin Hk Hbc). }
    destruct (foldl_last (fun bt : nat * art => lmatch q (snd bt)) kids last1) as [[E Hn0]|(k1 & [b t] & k2 & y & Ek & Hy & E & Hn0)].
    - change (last2 = last1) in E. rewrite E. unfold last1. destruct (lmatch q (Art a pre lf kids)) as [la|] eqn:El.
      + left. destruct (lmatch_Some _ _ _ _ _ Hr0 El) as (l & k & Hl & Hlk & Hin & Hkq). exists la, l, k, (l_val l). split_and!; [done..|].
        intros k' v' Hin' Hk'. by rewrite (Hall k' v' Hin' Hk'), (Hall k _ Hin Hkq).
      + right. split; [done|]. intros k v Hin Hk. pose proof Hin as Hi. apply elem_leaves in Hi as [[la ->]|(b & t & Hbt & Hi)].
        * unfold lmatch in El. cbn [alf] in El. rewrite getKey_snoc in El. apply has_prefix_true in Hk. by rewrite Hk in El.
        * destruct (decide (b = c)) as [->|Hbc]; [by eapply Hno|]. destruct (Hcont b t k v Hbt Hi Hk Hbc) as [-> ->].
          assert (Ht : akids t = []) by (eapply dollar_holder; eauto).
          destruct (holder_leaf h q _ t _ v (Hkids _ _ Hbt) Ht Hi Hk) as [y Hy]. specialize (Hn0 _ Hbt). cbn in Hn0. congruence.
    - change (last2 = Some y) in E. rewrite E. left. cbn [snd] in Hy. assert (Hbt : (b, t) ∈ kids) by (rewrite Ek; apply elem_of_app; right; left).
      destruct (lmatch_Some _ _ _ _ _ (Hkids _ _ Hbt) Hy) as (l & k & Hl & Hlk & Hin & Hkq). apply (Hkl b t Hbt) in Hin. exists y, l, k, (l_val l). split_and!; [done..|].
      intros k' v' Hin' Hk'. by rewrite (Hall k' v' Hin' Hk'), (Hall k _ Hin Hkq). }
  destruct (alook (ents kids) c) as [ca|] eqn:Eal.
  - destruct (alook_split _ _ _ Eal) as (l1 & l2 & El). destruct (enc_set n l1 c ca l2) as (idx & Hfc & _); [by rewrite <- El|].
    rewrite Hpn, Hfc. cbn [obind]. apply ents_split_cons in El as (k1 & t & k2 & Ek & _ & _ & Ert).
    assert (Hct : (c, t) ∈ kids) by (rewrite Ek; apply elem_of_app; right; left).
    apply lookup_lt_Some in Ec as Hlc.
    destruct (IH (p ++ pre ++ [c]) t last2 (Hkids c t Hct)) as (r' & Hs & Hres).
    { eapply narrowL_sub; [|exact Hnl]. by eapply Hkl. }
    { intros k c0 x v v' H1 H2. eapply Hol; by eapply Hkl. }
    { lia. } { rewrite !app_length. cbn. lia. }
    exists r'. rewrite !app_length in Hs. cbn in Hs. rewrite Nat.add_assoc, Ert in Hs. split; [exact Hs|].
    assert (Hlong : forall k v, (k ++ [dollar], v) ∈ leaves t -> k `prefix_of` q -> forall k' v', (k' ++ [dollar], v') ∈ leaves (Art a pre lf kids) -> k' `prefix_of` q ->
       (k' ++ [dollar], v') ∈ leaves t \/ k' = p ++ pre).
    { intros k v Hin Hk k' v' Hin' Hk'. apply elem_leaves in Hin' as [[la El]|(b & t' & Hbt & Hin')]; [right; by eapply Hown|].
      destruct (decide (b = c)) as [->|Hbc]; [|right; by destruct (Hcont b t' k' v' Hbt Hin' Hk' Hbc)]. left.
      by rewrite (kids_unique _ c t' t (rep_sorted _ _ _ _ _ _ Hr0) Hbt Hct) in Hin'. }
    assert (Hlift : lp_best h q t r' -> lp_best h q (Art a pre lf kids) r').
    { intros (la & l & k & v & -> & Hl & Hlk & Hlv & Hin & Hkq & Hmax). exists la, l, k, v. split_and!; [done..|by eapply Hkl|done|]. intros k' v' Hin' Hk'.
      destruct (Hlong k v Hin Hkq k' v' Hin' Hk') as [Hi| ->]; [by eapply Hmax|]. apply prefix_length. by eapply Hthru, Hkq; eauto. }
    destruct Hres as [Hbest|[-> Hres]]; [left; auto|].
    assert (Hnone : lp_none q t -> lp_best h q (Art a pre lf kids) last2 \/ last2 = last /\ (kids = [] \/ lp_none q (Art a pre lf kids))).
    { intros Hno. destruct Hscan as [?|[? ?]]; [|by left|right; auto]. intros b t' k v Hbt -> Hin. 
      rewrite (kids_unique _ c t' t (rep_sorted _ _ _ _ _ _ Hr0) Hbt Hct) in Hin. by eapply Hno. }
    destruct Hres as [Hak|]; [|auto]. destruct (lmatch q t) as [y|] eqn:Ey.
    2:{ apply Hnone. intros k v Hin Hk. destruct (holder_leaf h q _ t k v (Hkids _ _ Hct) Hak Hin Hk). congruence. }
    left. apply Hlift. destruct (lmatch_Some _ _ _ _ _ (Hkids _ _ Hct) Ey) as (l & k & Hl & Hlk & Hin & Hkq).
    assert (E2 : last2 = Some y).
    { destruct (foldl_last (fun bt : nat * art => lmatch q (snd bt)) kids last1) as [[_ Hn0]|(j1 & [b t'] & j2 & y' & Ej & Hy' & E & Hn0)].
      { specialize (Hn0 _ Hct). cbn in Hn0. congruence. }
      change (last2 = Some y') in E. rewrite E. cbn [snd] in Hy'. assert (Hbt : (b, t') ∈ kids) by (rewrite Ej; apply elem_of_app; right; left).
      destruct (decide (b = c)) as [->|Hbc].
      { rewrite (kids_unique _ c t' t (rep_sorted _ _ _ _ _ _ Hr0) Hbt Hct) in Hy'. congruence. }
      exfalso. destruct (lmatch_Some _ _ _ _ _ (Hkids _ _ Hbt) Hy') as (l' & k' & Hl' & Hlk' & Hin' & Hkq').
      destruct (Hcont _ _ _ _ Hbt Hin' Hkq' Hbc) as [-> ->].
      assert (Hcd : dollar < c).
      { destruct (kid_match _ _ _ _ _ _ _ _ _ _ q Hr0 Hct Hin Hkq) as [[-> _]|[_ [x Ex]]]; [done|]. assert (dollar <= c); [|lia].
        apply (Hol (p ++ pre) c x (l_val l') (l_val l)); [by eapply Hkl, Hin'| |]; (replace ((p ++ pre) ++ c :: x) with k; [|rewrite Ex, <- !app_assoc; done]); [by eapply Hkl, Hin|done]. }
      assert (Hc2 : (c, t) ∈ j1).
      { rewrite Ej in Hct. apply elem_of_app in Hct as [?|Hct]; [done|]. apply elem_of_cons in Hct as [[= ? _]|Hct]; [congruence|].
        specialize (Hn0 _ Hct). cbn in Hn0. congruence. }
      pose proof He as [Hso _ _ _ _ _ _]. rewrite Ej, ents_app in Hso. cbn in Hso. apply ssorted_app in Hso as (_ & _ & Hso).
      specialize (Hso (c, aroot t) (dollar, aroot t')). cbn in Hso. assert (c < dollar); [|lia]. apply Hso; [|left]. apply elem_ents. eauto. }
    rewrite E2. exists y, l, k, (l_val l). split_and!; [done..|]. intros k' v' Hin' Hk'.
    assert (E : k' = k); [|by rewrite E]. clear -Hak Hin Hin'. destruct t as [a' pre' lf' kids']. cbn [akids] in Hak. subst kids'.
    apply elem_leaves in Hin as [[la1 ->]|(b & t & Hbt & _)]; [|by apply elem_of_nil in Hbt].
    apply elem_leaves in Hin' as [[la2 [= _ E _]]|(b & t & Hbt & _)]; [|by apply elem_of_nil in Hbt]. by apply app_inj_tail in E as [-> _].
  - rewrite Hpn, (findChild_None n _ c He Hcb Eal). cbn [obind]. exists last2. split; [done|].
    destruct Hscan as [?|[? ?]]; [|by left|right; auto]. intros b t k v Hbt -> _ _. apply alook_None in Eal. apply Eal. rewrite ents_fst. apply elem_of_list_fmap. by exists (c, t).
Qed.

Lemma holds_longest b (h : heap V) a m q : holds b h a m -> m <> ∅ -> clean h -> is_bytes q -> orderly_along m q -> narrow m ->
  (exists k, is_Some (m !! k) /\ k `prefix_of` q) \/ ~ has_stem m ->
  exists o, longestPrefixFrom h a q = Ok o /\ match o with Some (k, v) => longest_stored m q k v | None => none_stored m q end.
Proof.
  intros Hh Hne Hcl Hqb Hqh Hnm Hor. destruct (holds_ne _ _ _ _ Hh Hne) as (t & Hr & Hnd & -> & Hc). unfold longestPrefixFrom.
  destruct (rep_node _ _ _ Hr) as (n & Hn & Hlf). rewrite Hn.
  destruct (lpLoop_spec h q Hcl Hqb (search_fuel (getTreeKey q)) [] t (n_leaf n) Hr) as (r & E & Hres).
  { by eapply contents_narrowL. }
  { intros k c x v v' H1 H2 Hp. apply Hc in H1 as (k1 & E1 & M1). apply app_inj_tail in E1 as [<- _]. apply Hc in H2 as (k2 & E2 & M2). apply app_inj_tail in E2 as [<- _]. exact (Hqh k c x (ex_intro _ _ M1) (ex_intro _ _ M2) Hp). } { unfold search_fuel. lia. } { unfold search_fuel. lia. }
  cbn [length] in E. rewrite E. cbn [obind].
  assert (Hbest : lp_best h q t r -> exists o, match r with None => Ok None | Some la => match h_leaves h !! la with Some l => Ok (Some (getKey (l_key l), l_val l)) | None => Panic end end = Ok o /\
     match o with Some (k, v) => longest_stored m q k v | None => none_stored m q end).
  { intros (la & l & k & v & -> & Hl & Hlk & Hlv & Hin & Hkq & Hmax). rewrite Hl, Hlk, getKey_snoc, Hlv. eexists. split; [done|]. split_and!.
    - apply Hc in Hin as (k0 & E0 & Hm). by apply app_inj_tail in E0 as [-> _].
    - done.
    - intros k' [v' Hm'] Hk'. eapply Hmax; [|done]. apply Hc. eauto. }
  destruct Hres as [?|[-> Hres]]; [auto|]. destruct t as [a pre lf kids]. cbn [alf akids aroot] in *. destruct (decide (kids = [])) as [->|Hnk].
  - pose proof Hr as Hr'. apply rep_inv in Hr' as (n' & Hn' & _ & _ & _ & _ & _ & Hk2 & Hk3 & _). destruct (Hk2 eq_refl) as (la & k & v & -> & _).
    pose proof Hlf as (Hnl & _ & l & Hl & Hlk & Hlv). destruct (Hk3 _ _ _ eq_refl) as [(k0 & -> & _) _].
    assert (Hin : (k0 ++ [dollar], v) ∈ leaves (Art a pre (Some (la, k0 ++ [dollar], v)) [])) by (apply elem_leaves; eauto).
    assert (Hone : forall k v', (k ++ [dollar], v') ∈ leaves (Art a pre (Some (la, k0 ++ [dollar], v)) []) -> k = k0).
    { intros k v' [[la' [= _ E' _]]|(b' & t & Hbt & _)]%elem_leaves; [|by apply elem_of_nil in Hbt]. by apply app_inj_tail in E' as [-> _]. }
    destruct Hor as [(k & [v' Hm] & Hkq)|Hns].
    + apply Hbest. assert (k = k0) as -> by (eapply Hone; apply Hc; eauto). exists la, l, k0, v. split_and!; [done..|]. intros k' v'' Hin' _. by rewrite (Hone _ _ Hin').
    + exfalso. apply Hns. exists k0. split; [apply Hc in Hin as (k1 & E1 & Hm); apply app_inj_tail in E1 as [-> _]; eauto|].
      intros k' [v' Hm]. assert (k' = k0) as -> by (eapply Hone; apply Hc; eauto). done.
  - destruct Hres as [?|Hno]; [done|]. assert (Hnone : none_stored m q).
    { intros k [v Hm] Hk. eapply Hno; [|exact Hk]. apply Hc. eauto. }
    destruct Hor as [(k & Hm & Hkq)|Hns]; [exfalso; by eapply Hnone|].
    destruct lf as [[[la k] v]|]; [|cbn in Hlf; rewrite Hlf; eauto]. exfalso. apply Hns. pose proof Hr as Hr'.
    apply rep_inv in Hr' as (n' & Hn' & _ & _ & _ & _ & _ & _ & Hk3 & _). destruct (Hk3 _ _ _ eq_refl) as [_ Hd]. destruct (Hd Hnk) as [-> _]. cbn [app] in *.
    assert (Hin : (pre ++ [dollar], v) ∈ leaves (Art a pre (Some (la, pre ++ [dollar], v)) kids)) by (apply elem_leaves; eauto).
    exists pre. split; [apply Hc in Hin as (k1 & E1 & Hm); apply app_inj_tail in E1 as [-> _]; eauto|].
    intros k' [v' Hm]. assert (Hin' : (k' ++ [dollar], v') ∈ leaves (Art a pre (Some (la, pre ++ [dollar], v)) kids)) by (apply Hc; eauto).
    apply elem_leaves in Hin' as [[la' [= _ E' _]]|(b' & t & Hbt & Hin')]; [by apply app_inj_tail in E' as [-> _]|].
    destruct (kid_match _ _ _ _ _ _ _ _ _ _ k' Hr Hbt Hin' ltac:(done)) as [[_ ->]|[_ Hp]]; [done|]. cbn [app] in Hp. etrans; [|exact Hp]. by exists [b'].
Qed.
Lemma er_clean (h : heap V) : clean h -> clean (er_h h).
Proof.
  intros Hc a n. rewrite er_lookup, fmap_Some. intros (n0 & Hn & ->). destruct (Hc _ _ Hn) as [Hcl Hlt]. done.
Qed.
End ReadWalk.
