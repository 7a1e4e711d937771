(** The cells of the leaves of a represented tree; marking the value in one of them. *)
From Verif Require Export Top Tag.
From stdpp Require Import list.
Local Open Scope nat_scope.

Section Cells.
Context {V : Type} `{GoZero V}.
Notation art := (art V).

(** [celled t la k v]: cell la of tree t holds the stored key k with value v. *)
Inductive celled : art -> addr -> bytes -> V -> Prop :=
| celled_own a pre kids la k v : celled (Art a pre (Some (la, k, v)) kids) la k v
| celled_kid a pre lf kids b t la k v : (b, t) ∈ kids -> celled t la k v -> celled (Art a pre lf kids) la k v.
Lemma celled_inv a pre lf kids la k v : celled (Art a pre lf kids) la k v -> lf = Some (la, k, v) \/ exists b t, (b, t) ∈ kids /\ celled t la k v.
Proof. intros Hc. inversion Hc; subst; [by left|right; eauto]. Qed.
Lemma celled_leaves t la k v : celled t la k v -> (k, v) ∈ leaves t.
Proof. induction 1; apply elem_leaves; [left; eauto|right; eauto]. Qed.
Lemma leaves_celled t k v : (k, v) ∈ leaves t -> exists la, celled t la k v.
Proof.
  induction t as [a pre lf kids IH] using art_ind'. intros Hin. apply elem_leaves in Hin as [(la & ->)|(b & t & Hbt & Hin)].
  - exists la. constructor.
  - destruct (IH _ _ Hbt Hin) as (la & Hc). exists la. by econstructor.
Qed.
Lemma celled_cell h p t la k v : rep h p t -> celled t la k v -> la < h_next h /\ exists l, h_leaves h !! la = Some l /\ l_key l = k /\ l_val l = v.
Proof.
  intros Hr Hc. revert p Hr. induction Hc as [a pre kids la k v|a pre lf kids b t la k v Hbt Hc IH]; intros p Hr;
  apply rep_inv in Hr as (n & Hn & Hlt & He & Hpl & Hlf & Hk1 & Hk2 & Hk3 & Hst & Hkids).
  - by destruct Hlf as (_ & ? & ?).
  - eapply IH. by apply Hkids.
Qed.

(** ** The channels do not matter *)
Lemma rep_uner (h : heap V) p t : rep (er_h h) p t -> rep h p t.
Proof.
  revert p. induction t as [a pre lf kids IH] using art_ind'. intros p Hr.
  pose proof (fun n => rep_low _ _ _ _ _ _ n Hr) as Hlow. apply rep_inv in Hr as (n & Hn & Hlt & He & Hpl & Hlf & Hk1 & Hk2 & Hk3 & Hst & Hkids).
  cbn [er_h h_nodes h_next] in Hn, Hlt. rewrite lookup_fmap in Hn. destruct (h_nodes h !! a) as [n0|] eqn:Hn0; [|done]. cbn in Hn. injection Hn as <-.
  assert (Hlr : forall o lf', leafrep (er_h h) o lf' -> leafrep h o lf').
  { intros o [[[la k] v]|]; [|done]. cbn. intros (-> & ? & l & Hl & Hk & Hv). split; [done|]. split; [done|]. rewrite lookup_fmap in Hl.
    destruct (h_leaves h !! la) as [l0|]; [|done]. cbn in Hl. injection Hl as <-. by exists l0. }
  apply (rep_node _ _ _ _ _ _ n0); [done|done|eapply enc_same; [|exact He]; done|done|by apply Hlr|done|done|done| | |].
  3: { apply (Hlow (er_n n0)). cbn. by rewrite lookup_fmap, Hn0. }
  - intros c Hc. destruct (Hst c) as (b & Hb & Hok); [exact Hc|]. exists b. split; [done|].
    destruct Hok as (H1 & n1 & H2 & H3). split; [done|]. cbn [er_h h_nodes] in H2. rewrite lookup_fmap in H2. destruct (h_nodes h !! c) as [n2|]; [|done].
    cbn in H2. injection H2 as <-. exists n2. split; [done|]. cbn in H3. destruct (n_leaf n2) as [la|]; [|done]. destruct H3 as (H3 & l & H4 & H5). split; [done|].
    rewrite lookup_fmap in H4. destruct (h_leaves h !! la) as [l0|]; [|done]. cbn in H4. injection H4 as <-. by exists l0.
  - intros b t Hbt. by apply (IH b t Hbt), Hkids.
Qed.

(** ** Search finds the cell *)
Lemma search_found (h : heap V) key t la v : is_bytes key -> forall fuel p, rep h p t -> celled t la key v -> length key - length p < fuel ->
  search fuel h (aroot t) key (length p) = Ok (Found la).
Proof.
  intros Hkb. induction t as [a pre lf kids IH] using art_ind'. intros fuel p Hr Hc Hf. pose proof Hr as Hr0.
  pose proof (celled_leaves _ _ _ _ Hc) as Hin. pose proof (rep_leaves _ _ _ _ _ Hr Hin) as [Hpk Hsk].
  destruct fuel as [|fuel]; [lia|]. cbn [search aroot].
  apply rep_inv in Hr as (n & Hn & Hlt & He & Hpl & Hlf & Hk1 & Hk2 & Hk3 & Hst & Hkids).
  rewrite Hn, (rep_isLeaf _ _ _ _ _ _ _ Hr0 Hn). pose proof (ownLeaf_spec h key n lf Hlf) as Hown.
  assert (Hlm : leafMatches key key = true) by (by apply leafMatches_true).
  destruct (decide (kids = [])) as [->|Hne].
  - rewrite bool_decide_true by done. apply celled_inv in Hc as [->|(b & t & Hbt & _)]; [|by apply elem_of_nil in Hbt].
    rewrite Hown, Hlm. done.
  - rewrite bool_decide_false by done. cbn [obind]. destruct (Hk1 Hne) as (Hpn & Hpt & Hnd).
    assert (Hpp : (p ++ pre) `prefix_of` key).
    { apply celled_inv in Hc as [->|(b & t & Hbt & Hct)].
      - destruct (Hk3 _ _ _ eq_refl) as [_ Hk]. destruct (Hk Hne) as [-> _]. rewrite app_assoc. by apply prefix_app_r.
      - apply celled_leaves in Hct. eapply app3_prefix, (rep_leaves_kid _ _ _ _ _ _ _ _ _ _ Hr0 Hbt Hct). }
    assert (Hpc : exists r, (if Nat.ltb 0 (n_plen n) then checkPrefix (n_partial n) (n_plen n) key (length p) else Ok 0) = Ok r /\
              Nat.ltb 0 (n_plen n) && negb (Nat.eqb r (maxPrefixLen `min` n_plen n)) = false).
    { destruct Hpp as [x Ex]. destruct (Nat.ltb_spec 0 (n_plen n)); [|by exists 0]. eexists. split.
      - rewrite Ex, <- app_assoc, Hpn. by apply checkPrefix_match.
      - cbn [andb]. by rewrite Hpn, Nat.eqb_refl. }
    destruct Hpc as (r & -> & Hrr). cbn [obind]. rewrite Hrr, Hpn.
    apply celled_inv in Hc as [->|(b & t & Hbt & Hct)].
    + destruct (Hk3 _ _ _ eq_refl) as [_ Hk]. destruct (Hk Hne) as [Ek Hd].
      assert (key !! (length p + length pre) = Some dollar) as ->.
      { rewrite Ek. rewrite app_assoc, lookup_app_r by (rewrite app_length; lia). by rewrite app_length, Nat.sub_diag. }
      rewrite (findChild_None n (ents kids) dollar); [|done|unfold dollar; lia|apply alook_None; by rewrite ents_fst]. cbn [obind].
      unfold searchExit. rewrite Hown, Hlm. done.
    + pose proof (celled_leaves _ _ _ _ Hct) as Hin'. pose proof (rep_leaves_kid _ _ _ _ _ _ _ _ _ _ Hr0 Hbt Hin') as [x Ex].
      assert (key !! (length p + length pre) = Some b) as ->.
      { rewrite Ex, <- !app_assoc. rewrite app_assoc, lookup_app_r by (rewrite app_length; lia). by rewrite app_length, Nat.sub_diag. }
      pose proof Hbt as Hbt0. apply elem_of_list_split in Hbt as (k1 & k2 & ->). rewrite ents_app in He.
      destruct (enc_set _ _ _ _ _ He) as (idx & Hfc & _). cbn in Hfc. rewrite Hfc. cbn [obind].
      specialize (IH b t Hbt0 fuel (p ++ pre ++ [b]) (Hkids _ _ Hbt0) Hct). rewrite !app_length in IH. cbn [length] in IH. rewrite Nat.add_assoc in IH.
      apply IH. assert (length p + length pre + 1 <= length key); [|lia]. rewrite Ex, !app_length. cbn. lia.
Qed.
Lemma celled_unique h t k la v la' v' : rep h [] t -> celled t la k v -> celled t la' k v' -> la = la' /\ v = v'.
Proof.
  intros Hr H1 H2. pose proof (rep_leaves _ _ _ _ _ Hr (celled_leaves _ _ _ _ H1)) as [_ Hs]. apply stored_bytes in Hs.
  pose proof (search_found h k t la v Hs (S (length k)) [] Hr H1) as E1. pose proof (search_found h k t la' v' Hs (S (length k)) [] Hr H2) as E2.
  cbn [length] in *. rewrite E1 in E2 by lia. assert (la = la') as -> by (specialize (E2 ltac:(lia)); congruence). split; [done|].
  destruct (celled_cell _ _ _ _ _ _ Hr H1) as (_ & l & Hl & _ & Hv). destruct (celled_cell _ _ _ _ _ _ Hr H2) as (_ & l' & Hl' & _ & Hv'). congruence.
Qed.
Lemma found_celled h key t la : is_bytes key -> rep h [] t -> search (search_fuel key) h (aroot t) key 0 = Ok (Found la) -> exists v, celled t la key v.
Proof.
  intros Hk Hr Es. destruct (search_spec h key t Hk (search_fuel key) [] Hr) as (r & Es' & Hr'); [cbn; lia|unfold search_fuel; cbn; lia|].
  cbn [length] in Es'. rewrite Es in Es'. injection Es' as <-. destruct Hr' as (l & Hl & Hin). apply leaves_celled in Hin as (la' & Hc). exists (l_val l).
  pose proof (search_found h key t la' _ Hk (search_fuel key) [] Hr Hc) as E2. cbn [length] in E2. rewrite Es in E2. enough (la = la') as -> by done.
  specialize (E2 ltac:(unfold search_fuel; lia)). congruence.
Qed.
End Cells.

(** ** Marking one cell *)
Global Instance zero_tag {V} `{GoZero V} : GoZero (V * bool) := (go_zero, false).
Section Mark.
Context {V : Type} `{GoZero V} (la0 : addr).
Notation W := (V * bool)%type.
Definition markL (la : addr) (l : lnode V) : lnode W := mkL (l_id l) (l_val l, bool_decide (la = la0)) (l_key l) (l_ch l).
Definition markH (h : heap V) : heap W := mkH (h_nodes h) (map_imap (fun x l => Some (markL x l)) (h_leaves h)) (h_next h) (h_nextch h) (h_closed h).
Lemma markH_lookup h x : h_leaves (markH h) !! x = markL x <$> h_leaves h !! x.
Proof. cbn. rewrite map_lookup_imap. by destruct (h_leaves h !! x). Qed.
Lemma fh_mark h : fh fst (markH h) = h.
Proof.
  destruct h as [N L n m c]. unfold fh. cbn. f_equal. apply map_eq. intros x. rewrite lookup_fmap, map_lookup_imap. destruct (L !! x) as [l|]; [|done].
  cbn. by destruct l.
Qed.
Definition markE (lf : option (addr * bytes * V)) : option (addr * bytes * W) :=
  match lf with Some (la, k, v) => Some (la, k, (v, bool_decide (la = la0))) | None => None end.
Fixpoint markA (t : art V) : art W :=
  match t with Art a pre lf kids => Art a pre (markE lf) (List.map (fun bt => (fst bt, markA (snd bt))) kids) end.
Notation mkids kids := (List.map (fun bt : nat * art V => (fst bt, markA (snd bt))) kids).
Lemma mark_kid b t' kids : (b, t') ∈ mkids kids <-> exists t, t' = markA t /\ (b, t) ∈ kids.
Proof.
  rewrite elem_of_list_In, in_map_iff. split.
  - intros ([b' t] & [= <- <-] & Hin). exists t. split; [done|]. by apply elem_of_list_In.
  - intros (t & -> & Hin). exists (b, t). split; [done|]. by apply elem_of_list_In.
Qed.
Lemma mark_root t : aroot (markA t) = aroot t.
Proof. by destruct t. Qed.
Lemma mark_ents kids : ents (mkids kids) = ents kids.
Proof. unfold ents. induction kids as [|[b t] kids IH]; [done|]. cbn. rewrite IH. by rewrite mark_root. Qed.
Lemma mark_fst kids : (mkids kids).*1 = kids.*1.
Proof. induction kids as [|[b t] kids IH]; [done|]. cbn. by rewrite IH. Qed.
Lemma mark_nil kids : mkids kids = [] <-> kids = [].
Proof. by destruct kids. Qed.
Lemma mark_lfa lf : lfa (markE lf) = lfa lf.
Proof. by destruct lf as [[[??]?]|]. Qed.
Lemma mark_fp t : fp (markA t) = fp t.
Proof.
  induction t as [a pre lf kids IH] using art_ind'. cbn [markA]. rewrite !fp_eq, mark_lfa. do 2 f_equal.
  induction kids as [|[b t] kids IHk]; [done|]. cbn [List.map fst snd]. rewrite !kfp_cons. rewrite (IH b t) by left. f_equal. apply IHk. intros b' t' Hx. apply (IH b' t'). by right.
Qed.
Lemma mark_leafok h c P : leafok h c P -> leafok (markH h) c P.
Proof.
  intros (H1 & n & H2 & H3). split; [done|]. exists n. split; [done|]. destruct (n_leaf n) as [la|]; [|done]. destruct H3 as (H3 & l & H4 & H5). split; [done|].
  exists (markL la l). rewrite markH_lookup, H4. done.
Qed.
Lemma rep_mark h p t : rep h p t -> rep (markH h) p (markA t).
Proof.
  revert p. induction t as [a pre lf kids IH] using art_ind'. intros p Hr.
  pose proof (fun n => rep_low _ _ _ _ _ _ n Hr) as Hlow. apply rep_inv in Hr as (n & Hn & Hlt & He & Hpl & Hlf & Hk1 & Hk2 & Hk3 & Hst & Hkids). cbn [markA].
  apply (rep_node _ _ _ _ _ _ n); [done|done|by rewrite mark_ents|done| | | | | | |].
  7: { rewrite <- (fmap_length fst), mark_fst, fmap_length. by apply Hlow. }
  - destruct lf as [[[la k] v]|]; [|done]. cbn [markE leafrep]. destruct Hlf as (-> & ? & l & Hl & Hk & Hv). split; [done|]. split; [done|].
    exists (markL la l). rewrite markH_lookup, Hl. cbn. by rewrite Hv.
  - rewrite mark_nil. done.
  - rewrite mark_nil. intros E. destruct (Hk2 E) as (la & k & v & -> & Hp). by exists la, k, (v, bool_decide (la = la0)).
  - intros la k v E. destruct lf as [[[la' k'] v']|]; [|done]. cbn [markE] in E. injection E as -> -> <-. destruct (Hk3 _ _ _ eq_refl) as [Hs Hk]. split; [done|].
    rewrite mark_nil, mark_fst. done.
  - intros c Hc. destruct (Hst c Hc) as (b & Hb & Hok). exists b. rewrite mark_fst. split; [done|]. by apply mark_leafok.
  - intros b t' Hin. apply mark_kid in Hin as (t & -> & Hin). apply (IH b t Hin). by apply Hkids.
Qed.
Lemma celled_mark t la k v b : celled (markA t) la k (v, b) <-> celled t la k v /\ b = bool_decide (la = la0).
Proof.
  induction t as [a pre lf kids IH] using art_ind'. cbn [markA]. split.
  - intros Hc. apply celled_inv in Hc as [E|(b' & t' & Hin & Hc)].
    + destruct lf as [[[la' k'] v']|]; [|done]. cbn in E. injection E as -> -> -> <-. split; [constructor|done].
    + apply mark_kid in Hin as (t & -> & Hin). apply (IH b' t Hin) in Hc as [Hc ->]. split; [by econstructor|done].
  - intros [Hc ->]. apply celled_inv in Hc as [->|(b' & t' & Hin & Hc)].
    + constructor.
    + eapply (celled_kid _ _ _ _ b' (markA t')); [apply mark_kid; eauto|]. by apply (IH b' t' Hin).
Qed.
End Mark.
