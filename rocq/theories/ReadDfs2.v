(** DFS on trees without pointers in unused slots and without Node256. *)
From Verif Require Export ReadDfs SpecScan.
From stdpp Require Import list.
Local Open Scope nat_scope.

Section ReadDfs2.
Context {V : Type} `{GoZero V}.
Notation art := (art V).
Notation kmap := (gmap (list nat) V).

Definition waysL (w : nat) (L : list (bytes * V)) : Prop :=
  forall q, exists bs, length bs <= w /\ forall b k v, (k, v) ∈ L -> (q ++ [b]) `prefix_of` k -> b ∈ bs.
Lemma waysL_sub (w : nat) L L' : (forall x, x ∈ L' -> x ∈ L) -> waysL w L -> waysL w L'.
Proof. intros Hs Hp q. destruct (Hp q) as (bs & Hl & Hb). exists bs. split; [done|]. intros b k v Hin. eapply Hb. by apply Hs. Qed.
Lemma contents_waysL (w : nat) (t : art) (m : kmap) : contents t m -> ways w m -> waysL w (leaves t).
Proof.
  intros Hc Hp q. destruct (Hp q) as (bs & Hl & Hb). exists bs. split; [done|]. intros b k v Hin Hpre. apply Hc in Hin as (k0 & -> & E). eapply Hb; eauto.
Qed.
Lemma ways_kind (h : heap V) p a pre lf kids n : rep h p (Art a pre lf kids) -> waysL 37 (leaves (Art a pre lf kids)) ->
  h_nodes h !! a = Some n -> sk n = true.
Proof.
  intros Hr Hnl Hn. pose proof (rep_low _ _ _ _ _ _ _ Hr Hn) as Hlow. pose proof (rep_sorted _ _ _ _ _ _ Hr) as Hnd. pose proof Hr as Hr0.
  apply rep_inv in Hr as (n' & Hn' & Hlt & He & Hpl & Hlf & Hk1 & Hk2 & Hk3 & Hst & Hkids).
  destruct (Hnl (p ++ pre)) as (bs & Hbl & Hbs). assert (Hkl : length kids <= 37).
  { rewrite <- (fmap_length fst). etrans; [|exact Hbl]. apply submseteq_length, NoDup_submseteq; [done|].
    intros b Hb. apply elem_of_list_fmap in Hb as ([b' t] & -> & Hbt). destruct (rep_nonempty _ _ _ (Hkids _ _ Hbt)) as (k & v & Hin).
    apply (Hbs b' k v); [apply elem_leaves; eauto|]. rewrite <- app_assoc. by eapply (rep_leaves_kid h p a pre lf kids b' t k v). }
  unfold sk. destruct (n_kind n); cbn in *; try done; lia.
Qed.
Lemma cl_children n : cl n -> sk n = true -> omap id (take (n_nch n) (n_children n)) = omap id (n_children n).
Proof.
  intros Hc Hk. rewrite <- (take_drop (n_nch n) (n_children n)) at 2. rewrite omap_app. replace (omap id (drop (n_nch n) (n_children n))) with (@nil addr); [by rewrite app_nil_r|].
  symmetry. apply elem_of_nil_inv. intros x Hx. apply elem_of_list_omap in Hx as (o & Ho & E). cbn in E. subst o. apply elem_of_list_lookup in Ho as [i Hi]. rewrite lookup_drop in Hi.
  apply (proj2 (Hc Hk)) in Hi. lia.
Qed.
Lemma dfs_perm (h : heap V) : clean h -> forall fuel p t, rep h p t -> NoDup (fp t) -> waysL 37 (leaves t) -> length (fp t) <= fuel ->
  exists ns, dfsNode fuel h (aroot t) = Ok ns /\ ns ≡ₚ nodes t.
Proof.
  intros Hcl. induction fuel as [|fuel IH]; intros p [a pre lf kids] Hr Hnd Hw Hf; [rewrite fp_eq in Hf; cbn in Hf; lia|].
  pose proof Hr as Hr0. apply rep_inv in Hr as (n & Hn & Hlt & He & Hpl & Hlf & Hk1 & Hk2 & Hk3 & Hst & Hkids).
  pose proof (ways_kind _ _ _ _ _ _ _ Hr0 Hw Hn) as Hk. destruct (Hcl _ _ Hn) as [Hcn _].
  pose proof (enc_clean_perm _ _ He (cl_stale _ Hcn) (roots_NoDup _ _ _ _ Hnd)) as Hperm. rewrite <- (cl_children n Hcn Hk) in Hperm.
  cbn [dfsNode aroot]. rewrite Hn.
  match goal with |- exists ns, obind ?x _ = _ /\ _ => change x with (dfs_loop fuel h n (seq 0 (n_nch n))) end.
  rewrite dfs_loop_omap.
  2:{ rewrite (enc_nch _ _ He), (enc_clen _ _ He). pose proof (enc_cap _ _ He). unfold u8. pose proof (Nat.mod_le (length (ents kids)) 256). lia. }
  change (drop 0 (n_children n)) with (n_children n).
  assert (Hks : exists ks, omap id (take (n_nch n) (n_children n)) = (fun bt => aroot (snd bt)) <$> ks /\ ks ≡ₚ kids).
  { unfold ents in Hperm. rewrite <- list_fmap_compose in Hperm. apply (Permutation_map_inv (fun bt : nat * art => aroot (snd bt))) in Hperm as (kids' & Ek & Hp).
    exists kids'. split; [|by symmetry]. exact Ek. }
  destruct Hks as (ks & -> & Hks).
  assert (Hloop : (forall bt, bt ∈ ks -> bt ∈ kids) -> exists ns, (fix loop (cs : list addr) : outcome (list addr) :=
    match cs with [] => Ok [] | c :: cs' => let? l1 := dfsNode fuel h c in let? l2 := loop cs' in Ok (l1 ++ l2) end) ((fun bt : nat * art => aroot (snd bt)) <$> ks) = Ok ns /\ ns ≡ₚ knodes ks).
  { clear Hks. induction ks as [|[b t] ks IHk]; intros Hin; [by exists []|]. destruct IHk as (ls & E & Hls); [intros; apply Hin; by right|].
    specialize (Hin (b, t) ltac:(left)). destruct (IH _ t (Hkids b t Hin)) as (l & El & Hl).
    - eapply NoDup_sublist; [by eapply elem_kids_fp|done].
    - eapply waysL_sub; [|exact Hw]. by apply (kid_sub a pre lf kids b).
    - pose proof (kid_fp_lt a b t kids lf pre Hin). lia.
    - exists (l ++ ls). cbn [fmap list_fmap snd]. rewrite El. cbn [obind]. cbn [fmap list_fmap] in E. rewrite E. split; [done|]. change (knodes ((b, t) :: ks)) with (nodes t ++ knodes ks). by rewrite Hl, Hls. }
  destruct Hloop as (ns & -> & Hns); [intros bt Hbt; by rewrite <- Hks|]. exists (a :: ns). split; [done|]. rewrite nodes_eq. constructor.
  rewrite Hns. unfold knodes. rewrite <- !flat_map_concat_map. by rewrite Hks.
Qed.
Lemma holds_dfs_ways (b : bool) (h : heap V) (a : addr) (m : kmap) : Top.holds b h a m -> m <> ∅ -> clean h -> ways 37 m ->
  exists ns, dfsNode (walk_fuel h) h a = Ok ns /\ NoDup ns /\ shown h ns ≡ₚ map_to_list m.
Proof.
  intros Hh Hne Hcl Hw. destruct (holds_ne _ _ _ _ Hh Hne) as (t & Hr & Hnd & -> & Hc). destruct (dfs_perm h Hcl (walk_fuel h) [] t Hr Hnd) as (ns & E & Hp); [by eapply contents_waysL|by eapply fp_walk|].
  exists ns. split; [done|]. split; [rewrite Hp; eapply NoDup_sublist; [apply nodes_fp|done]|].
  assert (Hps : shown h ns ≡ₚ shown h (nodes t)) by (unfold shown; by rewrite Hp). rewrite Hps, (shown_nodes _ _ _ Hr). apply NoDup_Permutation.
  - eapply NoDup_fmap_1. by eapply unterm_NoDup.
  - apply NoDup_map_to_list.
  - intros [k v]. rewrite elem_of_map_to_list. by apply contents_unterm.
Qed.
End ReadDfs2.
