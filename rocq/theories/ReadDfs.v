(** DFS on trees of nodes of kinds 4 and 16. *)
From Verif Require Export SpecRead SpecDfs ReadWalk ReadTop.
Local Open Scope nat_scope.

Section ReadDfs.
Context {V : Type} `{GoZero V}.
Notation art := (art V).
Notation kmap := (gmap (list nat) V).

(** The nodes of a tree in preorder. *)
Fixpoint nodes (t : art) : list addr := match t with Art a _ _ kids => a :: concat (List.map (fun bt => nodes (snd bt)) kids) end.
Definition knodes (kids : list (nat * art)) : list addr := concat (List.map (fun bt => nodes (snd bt)) kids).
Lemma nodes_eq a pre lf kids : nodes (Art a pre lf kids) = a :: knodes kids.
Proof. done. Qed.
Lemma nodes_fp (t : art) : nodes t `sublist_of` fp t.
Proof.
  induction t as [a pre lf kids IH] using art_ind'. rewrite nodes_eq, fp_eq. constructor. apply sublist_inserts_l.
  induction kids as [|[b t] kids IHk]; [done|]. rewrite kfp_cons. change (knodes ((b, t) :: kids)) with (nodes t ++ knodes kids).
  apply sublist_app; [apply (IH b); left|]. apply IHk. intros b' t' Hin. apply (IH b'). by right.
Qed.

Definition dfs_loop fuel (h : heap V) (n : inode) := fix loop (itrs : list nat) : outcome (list addr) :=
  match itrs with
  | [] => Ok []
  | i :: itrs' =>
      let? e := getChild n i in
      match e with
      | None => loop itrs'
      | Some c => let? l1 := dfsNode fuel h c in
                  let? l2 := loop itrs' in Ok (l1 ++ l2)
      end
  end.
Lemma dfs_rep (h : heap V) : forall fuel p t, rep h p t -> narrowL (leaves t) -> length (fp t) <= fuel -> dfsNode fuel h (aroot t) = Ok (nodes t).
Proof.
  induction fuel as [|fuel IH]; intros p [a pre lf kids] Hr Hnl Hf; [rewrite fp_eq in Hf; cbn in Hf; lia|].
  pose proof Hr as Hr0. apply rep_inv in Hr as (n & Hn & Hlt & He & Hpl & Hlf & Hk1 & Hk2 & Hk3 & Hst & Hkids).
  pose proof (narrow_kind _ _ _ _ _ _ _ Hr0 Hnl Hn) as Hk. destruct (enc_sorted_dec _ _ He Hk) as (R & R' & HK & HC & HR & Hcap & Hst' & Hnc).
  cbn [dfsNode aroot]. rewrite Hn. change (obind (dfs_loop fuel h n (seq 0 (n_nch n))) (fun rest => Ok (a :: rest)) = Ok (nodes (Art a pre lf kids))).
  assert (Hloop : forall k1 k2, kids = k1 ++ k2 -> dfs_loop fuel h n (seq (length k1) (length k2)) = Ok (knodes k2)).
  { intros k1 k2. revert k1. induction k2 as [|[b t] k2 IHk]; intros k1 Ek; [done|]. cbn [length seq dfs_loop].
    assert (Hg : getChild n (length k1) = Ok (Some (aroot t))).
    { unfold getChild. rewrite HC. rewrite Ek. unfold ents. rewrite <- !list_fmap_compose, fmap_app, <- app_assoc.
      rewrite lookup_app_r by (by rewrite fmap_length). rewrite fmap_length, Nat.sub_diag. by destruct (n_kind n). }
    rewrite Hg. cbn [obind]. assert (Hin : (b, t) ∈ kids) by (rewrite Ek; apply elem_of_app; right; left).
    rewrite (IH _ t (Hkids b t Hin)); [|eapply narrowL_sub; [|exact Hnl]; by apply (kid_sub a pre lf kids b)|pose proof (kid_fp_lt a b t kids lf pre Hin); lia].
    cbn [obind]. specialize (IHk (k1 ++ [(b, t)])). rewrite app_length in IHk. cbn [length] in IHk. rewrite Nat.add_1_r in IHk.
    rewrite IHk by (by rewrite <- app_assoc). done. }
  rewrite Hnc. replace (length (ents kids)) with (length kids) by (unfold ents; by rewrite fmap_length). specialize (Hloop [] kids eq_refl). cbn [length] in Hloop. by rewrite Hloop.
Qed.
Lemma shown_app (h : heap V) l1 l2 : shown h (l1 ++ l2) = shown h l1 ++ shown h l2.
Proof. apply omap_app. Qed.
Lemma shown_nodes (h : heap V) (t : art) : forall p, rep h p t -> shown h (nodes t) = unterm (leaves t).
Proof.
  induction t as [a pre lf kids IH] using art_ind'. intros p Hr. pose proof Hr as Hr0. apply rep_inv in Hr as (n & Hn & Hlt & He & Hpl & Hlf & Hk1 & Hk2 & Hk3 & Hst & Hkids).
  rewrite nodes_eq, leaves_eq. change (a :: knodes kids) with ([a] ++ knodes kids). rewrite shown_app. unfold unterm. rewrite fmap_app. f_equal.
  - unfold shown. cbn [omap list_omap]. unfold shown_by. rewrite Hn. cbn [mbind option_bind]. destruct lf as [[[la k] v]|]; cbn in Hlf.
    + destruct Hlf as (-> & _ & l & Hl & <- & <-). cbn. by rewrite Hl.
    + by rewrite Hlf.
  - clear Hr0 He Hlf Hk1 Hk2 Hk3 Hst. induction kids as [|[b t] kids IHk]; [done|]. change (knodes ((b, t) :: kids)) with (nodes t ++ knodes kids).
    rewrite shown_app, kleaves_cons, fmap_app. f_equal; [eapply (IH b); [left|]; apply Hkids; left|].
    apply IHk; intros b' t' Hin; [apply (IH b')|apply Hkids]; by right.
Qed.
Lemma rep_iterates (h : heap V) (t : art) : rep h [] t -> NoDup (fp t) -> iterates h (aroot t) [] (unterm (leaves t)).
Proof.
  intros Hr Hnd. destruct (seekLoop_spec h [] ltac:(constructor) t (length (@nil nat) + 2) [] Hr Hnd ltac:(cbn; lia)) as (t' & p' & E & Hr' & Hl' & Hf). specialize (Hf ltac:(done)).
  set (P := fun kv : bytes * V => hasPrefix kv.1 [] = true) in *.
  assert (HP : filter P (leaves t) = leaves t).
  { unfold P. clear. induction (leaves t) as [|x l IHl]; [done|]. rewrite filter_cons. rewrite decide_True by done. by rewrite IHl. }
  exists (mkIt [] (Some (RN (aroot t'))) (Some [Some (RN (aroot t'))])). split.
  - unfold seekPrefix, newIter. cbn [it_node length] in *. by rewrite E.
  - rewrite <- HP, <- Hf. replace (leaves t') with (sl [t']) by (unfold sl; cbn; by rewrite app_nil_r).
    apply (iterNext_yields h [] _ [t']); [repeat constructor; eauto|]. unfold sfp. cbn [List.map concat]. rewrite app_nil_r.
    pose proof (fp_walk _ _ _ Hr Hnd). unfold walk_fuel in *. pose proof (fp_bound _ _ _ Hr Hnd). lia.
Qed.
(** Whatever the kinds of nodes, DFS visits nodes of the tree only, and none twice. *)
Lemma enc_first_children n es : enc n es -> NoDup es.*2 -> omap id (take (n_nch n) (n_children n)) ⊆+ es.*2.
Proof.
  intros He Hnd. destruct (sortedkind (n_kind n)) eqn:Hk.
  - destruct (enc_sorted_dec _ _ He Hk) as (R & R' & HK & HC & HR & Hcap & Hst' & Hnc). rewrite HC, Hnc.
    replace (length es) with (length (Some <$> es.*2)) by (by rewrite !fmap_length). rewrite take_app.
    replace (omap id (Some <$> es.*2)) with (es.*2); [done|]. clear. induction es as [|e es IH]; [done|]. cbn. by rewrite <- IH.
  - assert (Hst : stale n = []) by (unfold stale; by rewrite Hk). rewrite <- (enc_clean_perm _ _ He Hst Hnd).
    rewrite <- (take_drop (n_nch n) (n_children n)) at 2. rewrite omap_app. by apply submseteq_inserts_r.
Qed.
Lemma dfs_loop_omap fuel (h : heap V) n i k : i + k <= length (n_children n) ->
  dfs_loop fuel h n (seq i k) = (fix loop (cs : list addr) : outcome (list addr) :=
    match cs with [] => Ok [] | c :: cs' => let? l1 := dfsNode fuel h c in let? l2 := loop cs' in Ok (l1 ++ l2) end) (omap id (take k (drop i (n_children n)))).
Proof.
  revert i. induction k as [|k IH]; intros i Hl; [done|]. cbn [seq dfs_loop]. destruct (lookup_lt_is_Some_2 (n_children n) i) as [o Ho]; [lia|].
  assert (Hg : getChild n i = Ok o) by (unfold getChild; rewrite Ho; by destruct (n_kind n)). rewrite Hg. cbn [obind].
  rewrite (drop_S _ _ _ Ho). cbn [take omap list_omap]. specialize (IH (S i) ltac:(lia)). destruct o as [c|]; cbn [id]; [|exact IH].
  destruct (dfsNode fuel h c) as [l1| |]; cbn [obind]; [|done..]. by rewrite IH.
Qed.
Lemma dfs_sub (h : heap V) : forall fuel p t, rep h p t -> NoDup (fp t) -> length (fp t) <= fuel ->
  exists ns, dfsNode fuel h (aroot t) = Ok ns /\ ns ⊆+ nodes t.
Proof.
  induction fuel as [|fuel IH]; intros p [a pre lf kids] Hr Hnd Hf; [rewrite fp_eq in Hf; cbn in Hf; lia|].
  pose proof Hr as Hr0. apply rep_inv in Hr as (n & Hn & Hlt & He & Hpl & Hlf & Hk1 & Hk2 & Hk3 & Hst & Hkids).
  pose proof (enc_first_children _ _ He (roots_NoDup _ _ _ _ Hnd)) as Hsub.
  cbn [dfsNode aroot]. rewrite Hn.
  match goal with |- exists ns, obind ?x _ = _ /\ _ => change x with (dfs_loop fuel h n (seq 0 (n_nch n))) end.
  rewrite dfs_loop_omap.
  2:{ rewrite (enc_nch _ _ He), (enc_clen _ _ He). pose proof (enc_cap _ _ He). unfold u8. pose proof (Nat.mod_le (length (ents kids)) 256). lia. }
  change (drop 0 (n_children n)) with (n_children n).
  assert (Hk : exists ks, omap id (take (n_nch n) (n_children n)) = (fun bt => aroot (snd bt)) <$> ks /\ ks ⊆+ kids).
  { apply submseteq_Permutation in Hsub as [k0 Hp]. unfold ents in Hp. rewrite <- list_fmap_compose in Hp.
    symmetry in Hp. apply (Permutation_map_inv (fun bt : nat * art => aroot (snd bt))) in Hp as (kids' & Ek & Hp). symmetry in Ek. change (List.map ?f ?l) with (f <$> l) in Ek. apply fmap_app_inv in Ek as (k1 & k2 & -> & E1 & ->).
    exists k1. split; [done|]. rewrite Hp. by apply submseteq_inserts_r. }
  destruct Hk as (ks & -> & Hks).
  assert (Hloop : (forall bt, bt ∈ ks -> bt ∈ kids) -> exists ns, (fix loop (cs : list addr) : outcome (list addr) :=
    match cs with [] => Ok [] | c :: cs' => let? l1 := dfsNode fuel h c in let? l2 := loop cs' in Ok (l1 ++ l2) end) ((fun bt : nat * art => aroot (snd bt)) <$> ks) = Ok ns /\ ns ⊆+ knodes ks).
  { clear Hks. induction ks as [|[b t] ks IHk]; intros Hin; [by exists []|]. destruct IHk as (ls & E & Hls); [intros; apply Hin; by right|].
    specialize (Hin (b, t) ltac:(left)). destruct (IH _ t (Hkids b t Hin)) as (l & El & Hl).
    - eapply NoDup_sublist; [by eapply elem_kids_fp|done].
    - pose proof (kid_fp_lt a b t kids lf pre Hin). lia.
    - exists (l ++ ls). cbn [fmap list_fmap snd]. rewrite El. cbn [obind]. cbn [fmap list_fmap] in E. rewrite E. split; [done|]. change (knodes ((b, t) :: ks)) with (nodes t ++ knodes ks). by apply submseteq_app. }
  destruct Hloop as (ns & -> & Hns); [intros bt Hbt; by eapply elem_of_submseteq|]. exists (a :: ns). split; [done|]. rewrite nodes_eq. apply submseteq_skip.
  etrans; [exact Hns|]. apply submseteq_Permutation in Hks as [k0 Hp]. unfold knodes. rewrite <- !flat_map_concat_map, Hp, flat_map_app. by apply submseteq_inserts_r.
Qed.
Lemma holds_dfs_any b (h : heap V) a m : holds b h a m -> m <> ∅ ->
  exists ns, dfsNode (walk_fuel h) h a = Ok ns /\ NoDup ns /\ NoDup (shown h ns).*1 /\ forall k v, (k, v) ∈ shown h ns -> m !! k = Some v.
Proof.
  intros Hh Hne. destruct (holds_ne _ _ _ _ Hh Hne) as (t & Hr & Hnd & -> & Hc). destruct (dfs_sub h (walk_fuel h) [] t Hr Hnd) as (ns & E & Hs); [by eapply fp_walk|].
  apply submseteq_Permutation in Hs as [k0 Hp]. assert (Hn : NoDup (nodes t)) by (eapply NoDup_sublist; [apply nodes_fp|done]).
  assert (Hps : shown h (nodes t) ≡ₚ shown h ns ++ shown h k0) by (rewrite <- shown_app; unfold shown; by rewrite Hp).
  rewrite (shown_nodes _ _ _ Hr) in Hps. pose proof (unterm_NoDup _ _ _ Hr) as Hu. exists ns. split_and!.
  - done.
  - rewrite Hp in Hn. by apply NoDup_app in Hn as [? _].
  - rewrite Hps, fmap_app in Hu. by apply NoDup_app in Hu as [? _].
  - intros k v Hin. apply (contents_unterm t m k v Hc). rewrite Hps. apply elem_of_app. by left.
Qed.
Lemma holds_dfs b (h : heap V) a m : holds b h a m -> m <> ∅ -> narrow m ->
  exists ns, dfsNode (walk_fuel h) h a = Ok ns /\ NoDup ns /\ iterates h a [] (shown h ns).
Proof.
  intros Hh Hne Hnm. destruct (holds_ne _ _ _ _ Hh Hne) as (t & Hr & Hnd & -> & Hc). exists (nodes t). split_and!.
  - eapply dfs_rep; [exact Hr|by eapply contents_narrowL|by eapply fp_walk].
  - eapply NoDup_sublist; [apply nodes_fp|done].
  - rewrite (shown_nodes _ _ _ Hr). by apply rep_iterates.
Qed.
End ReadDfs.
