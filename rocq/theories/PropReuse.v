(** Iterators that are used again (restated in Properties_Reuse.v). *)
From Verif Require Import ReadTop PropWorld PropMap Refute PropRead SpecReuse.
From stdpp Require Import list.
Local Open Scope nat_scope.

Section Reuse.
Context {V : Type} `{GoZero V}.
Notation art := (art V).
Notation kmap := (gmap (list nat) V).
Notation match_p path := (fun kv : bytes * V => hasPrefix kv.1 path = true).

Lemma kleaves_sub (kids : list (nat * art)) b t : (b, t) ∈ kids -> leaves t `sublist_of` kleaves kids.
Proof.
  intros Hin. apply elem_of_list_split in Hin as (l1 & l2 & ->). rewrite kleaves_app, kleaves_cons. apply sublist_inserts_l, sublist_inserts_r. done.
Qed.

(** A descent that starts at any node with any depth ends at a node of that subtree. *)
Lemma seekLoop_any (h : heap V) q : is_bytes q -> forall t fuel p depth, rep h p t -> NoDup (fp t) -> length q - depth < fuel ->
  exists t' p', seekLoop fuel h (aroot t) q depth = Ok (aroot t') /\ rep h p' t' /\ NoDup (fp t') /\ leaves t' `sublist_of` leaves t.
Proof.
  intros Hb t. induction t as [a pre lf kids IH] using art_ind'. intros fuel p depth Hr Hnd Hf.
  destruct fuel as [|fuel]; [lia|]. cbn [seekLoop aroot]. pose proof Hr as Hr0.
  assert (Hstay : exists t' p', Ok a = Ok (aroot t') /\ rep h p' t' /\ NoDup (fp t') /\ leaves t' `sublist_of` leaves (Art a pre lf kids)) by (by exists (Art a pre lf kids), p).
  apply rep_inv in Hr as (n & Hn & Hlt & He & Hpl & Hlf & Hk1 & Hk2 & Hk3 & Hst & Hkids).
  rewrite Hn, (rep_isLeaf _ _ _ _ _ _ _ Hr0 Hn).
  assert (Hgo : forall dd, depth <= dd -> exists t' p', match q !! dd with
     | None => Ok a
     | Some c => let? '(child, _) := findChild n c in match child with None => Ok a | Some ca => seekLoop fuel h ca q (dd + 1) end
     end = Ok (aroot t') /\ rep h p' t' /\ NoDup (fp t') /\ leaves t' `sublist_of` leaves (Art a pre lf kids)).
  { intros dd Hdd. destruct (q !! dd) as [c|] eqn:Ec; [|done].
    assert (Hc : c < 256). { unfold is_bytes in Hb. rewrite Forall_forall in Hb. by eapply Hb, elem_of_list_lookup_2. }
    destruct (alook (ents kids) c) as [ca|] eqn:Eal; [|by rewrite (findChild_None n (ents kids) c)].
    destruct (alook_split _ _ _ Eal) as (l1 & l2 & El). destruct (enc_set n l1 c ca l2) as (idx & Hfc & _); [by rewrite <- El|].
    rewrite Hfc. cbn [obind]. apply ents_split_cons in El as (k1 & t & k2 & -> & _ & _ & Ert).
    assert (Hct : (c, t) ∈ k1 ++ (c, t) :: k2) by (apply elem_of_app; right; left). apply lookup_lt_Some in Ec as Hlc.
    destruct (IH c t Hct fuel (p ++ pre ++ [c]) (dd + 1) (Hkids c t Hct)) as (t' & p' & E & Hr' & Hnd' & Hs).
    { rewrite fp_eq in Hnd. apply NoDup_cons in Hnd as [_ Hnd]. apply NoDup_app in Hnd as (_ & _ & Hnd). rewrite kfp_app, kfp_cons in Hnd.
      apply NoDup_app in Hnd as (_ & _ & Hnd). by apply NoDup_app in Hnd as [? _]. }
    { lia. }
    rewrite Ert in E. exists t', p'. split_and!; [done..|]. rewrite leaves_eq. etrans; [exact Hs|]. apply sublist_inserts_l. by eapply kleaves_sub. }
  destruct (negb _ && Nat.ltb 0 (n_plen n)); cbn [obind]; [|by apply Hgo].
  destruct (prefixMismatch_total h p a pre lf kids n q depth Hr0 Hnd Hn) as [m Em]. rewrite Em. cbn [obind].
  destruct (Nat.ltb m (n_plen n)); cbn [obind]; [done|]. apply Hgo. lia.
Qed.

Lemma phantom_seek b (h : heap V) a p : phantom b h a -> is_bytes p -> forall it, it_node it = Some (RN a) ->
  seekPrefix h it p = Ok (mkIt p (Some (RN a)) (Some [Some (RN a)])).
Proof.
  intros (n & la & l & Hn & Hlt & He & Hpl & Hch & Hlf & Hla & Hl & Hk & Hne & Hb) Hp it Hit.
  unfold seekPrefix. rewrite Hit. replace (length p + 2) with (S (length p + 1)) by lia. cbn [seekLoop]. rewrite Hn, Hpl.
  cbn [Nat.ltb Nat.leb]. rewrite andb_false_r. cbn [obind]. destruct (p !! 0) as [c|] eqn:Ec; [|done].
  rewrite (findChild_None n [] c); [done|done| |done]. unfold is_bytes in Hp. rewrite Forall_forall in Hp. by eapply Hp, elem_of_list_lookup_2.
Qed.
Lemma used_inner (b : bool) (h : heap V) (root : addr) (m : kmap) it : Top.holds b (er_h h) root m -> used h (newIter root) it ->
  exists x, it_node it = Some (RN x) /\ (m = ∅ /\ x = root \/ exists t t' p', rep (er_h h) [] t /\ NoDup (fp t) /\ aroot t = root /\ contents t m /\
    aroot t' = x /\ rep (er_h h) p' t' /\ NoDup (fp t') /\ leaves t' `sublist_of` leaves t).
Proof.
  intros Hh Hu. destruct Hh as [-> Hph|t Hr Hnd Ea Hc].
  - exists root. split; [|by left]. induction Hu as [|it p it' Hu IH Hp E|it r it' Hu IH E|it x Hu IH E]; [done|..].
    + rewrite <- er_seekPrefix, (phantom_seek _ _ _ _ Hph Hp _ IH) in E. by injection E as <-.
    + unfold iterNext in E. destruct (nextLoop _ _ _ _) as [[r' st]| |]; cbn in E; try done. by injection E as <- <-.
    + rewrite IH in E. by injection E as ->.
  - assert (Hx : exists x t' p', it_node it = Some (RN x) /\ aroot t' = x /\ rep (er_h h) p' t' /\ NoDup (fp t') /\ leaves t' `sublist_of` leaves t).
    { induction Hu as [|it p it' Hu IH Hp E|it r it' Hu IH E|it x Hu IH E].
      - exists root, t, []. split_and!; done.
      - destruct IH as (x & t' & p' & Hit & <- & Hr' & Hnd' & Hs). destruct (seekLoop_any (er_h h) p Hp t' (length p + 2) p' 0 Hr' Hnd' ltac:(lia)) as (t2 & p2 & E2 & Hr2 & Hnd2 & Hs2).
        rewrite <- er_seekPrefix in E. unfold seekPrefix in E. rewrite Hit, E2 in E. cbn in E. injection E as <-. exists (aroot t2), t2, p2. cbn. split_and!; try done. by etrans.
      - destruct IH as (x & t' & p' & Hit & IH). exists x, t', p'. split; [|done]. unfold iterNext in E. destruct (nextLoop _ _ _ _) as [[r' st]| |]; cbn in E; try done. by injection E as <- <-.
      - destruct IH as (x' & t' & p' & Hit & IH). rewrite Hit in E. injection E as ->. by exists x, t', p'. }
    destruct Hx as (x & t' & p' & Hit & Ht & Hr' & Hnd' & Hs). exists x. split; [done|]. right. exists t, t', p'. split_and!; done.
Qed.
Lemma unterm_sub (l l' : list (bytes * V)) : l `sublist_of` l' -> (unterm l).*1 `sublist_of` (unterm l').*1.
Proof. unfold unterm. induction 1; cbn; by constructor. Qed.
Lemma filter_sub (P : bytes * V -> Prop) `{forall x, Decision (P x)} l : filter P l `sublist_of` l.
Proof. induction l as [|x l IH]; [done|]. rewrite filter_cons. destruct (decide (P x)); by constructor. Qed.
Lemma used_seek_yields (b : bool) (h : heap V) (root : addr) (m : kmap) it p : Top.holds b (er_h h) root m -> used h (newIter root) it ->
  is_bytes p -> last p <> Some dollar -> (m = ∅ -> p <> []) ->
  exists it' l, seekPrefix h it p = Ok it' /\ yields (iterNext h) it' l /\ some_pairs_with m p l.
Proof.
  intros Hh Hu Hp Hlast Hne. destruct (used_inner _ _ _ _ _ Hh Hu) as (x & Hit & [[-> ->]|(t & t' & p' & Hr & Hnd & Ha & Hc & <- & Hr' & Hnd' & Hs)]).
  - inversion Hh as [_ Hph|t Hr Hnd Ha Hc].
    + destruct (phantom_iterates _ _ _ p Hph Hp (Hne eq_refl)) as (it' & E & Hy). rewrite (phantom_seek _ _ _ _ Hph Hp) in E by done. injection E as <-.
      eexists _, []. rewrite <- er_seekPrefix, (phantom_seek _ _ _ _ Hph Hp _ Hit). split; [done|]. split; [|split; [constructor|intros k v Hx; by apply elem_of_nil in Hx]].
      eapply yields_ext; [|exact Hy]. intros. by rewrite er_iterNext.
    + exfalso. destruct (minimum_node (walk_fuel (er_h h)) (er_h h) [] t Hr) as (la & l & k & v & L & _ & _ & _ & _ & El); [by eapply fp_walk|]. destruct (proj1 (Hc k v)) as (k0 & _ & Hx); [rewrite El; left|]. by rewrite lookup_empty in Hx.
  - destruct (seekLoop_any (er_h h) p Hp t' (length p + 2) p' 0 Hr' Hnd' ltac:(lia)) as (t2 & p2 & E2 & Hr2 & Hnd2 & Hs2).
    assert (Hsub : filter (match_p p) (leaves t2) `sublist_of` leaves t). { etrans; [apply filter_sub|]. by etrans. }
    exists (mkIt p (Some (RN (aroot t2))) (Some [Some (RN (aroot t2))])), (unterm (filter (match_p p) (leaves t2))). split; [|split; [|split]].
    + rewrite <- er_seekPrefix. unfold seekPrefix. by rewrite Hit, E2.
    + eapply yields_ext; [intros; apply er_iterNext|]. replace (leaves t2) with (sl [t2]) by (unfold sl; cbn; by rewrite app_nil_r).
      apply (iterNext_yields (er_h h) p _ [t2]); [repeat constructor; eauto|]. unfold sfp. cbn [List.map concat]. rewrite app_nil_r.
      pose proof (fp_bound _ _ _ Hr2 Hnd2). lia.
    + eapply NoDup_sublist; [by apply unterm_sub|]. by eapply unterm_NoDup.
    + intros k v Hin. apply unterm_elem in Hin as (k1 & Hin & ->). pose proof Hin as Hin'. apply elem_of_list_filter in Hin as [HP _]. cbn in HP.
      assert (Hin2 : (k1, v) ∈ leaves t) by (by eapply elem_of_submseteq, sublist_submseteq).
      split; [apply (contents_unterm t m _ _ Hc), unterm_elem; eauto|]. rewrite hasPrefix_has in HP.
      destruct (rep_stored _ _ _ _ _ Hr Hin2) as (k0 & -> & _). rewrite getKey_snoc. by rewrite has_prefix_term in HP.
Qed.
End Reuse.

(** *** C62: Next on an iterator that has not been sought yields nothing (on any heap). *)
Lemma C62_unsought_proof {V} `{GoZero V} (h : heap V) (root : addr) :
  yields (iterNext h) (newIter root) [] /\ yields (lowerNext h) (newLowerIter root) [].
Proof. split; eapply yields_nil; unfold iterNext, lowerNext, walk_fuel; cbn; reflexivity. Qed.

(** *** C62, forward iterator: after any use of an iterator of the tree - seeks with any byte strings, Next, iterators obtained
    from the nodes that seeks returned - a further SeekPrefix(p) does not panic, and Next then yields only stored
    pairs whose key starts with p, none twice.  Missing: all of them (false, see C62_refuted). *)
Lemma C62_partial_proof {V} `{GoZero V} (os : list (op V)) d h t rs it p :
  tame os d -> (N.of_nat (length os) < 2 ^ 64)%N -> build os h t rs -> used h (newIter (r_root t)) it ->
  is_bytes p -> last p <> Some dollar -> (ref_ops os ∅ = ∅ -> p <> []) ->
  exists it' l, seekPrefix h it p = Ok it' /\ yields (iterNext h) it' l /\ some_pairs_with (ref_ops os ∅) p l.
Proof. intros Ht Hl Hb Hu. pose proof (build_holds os d h t rs Ht Hl Hb) as Hh. by eapply used_seek_yields. Qed.

(** *** C62: as long as all seeks so far had the empty prefix, the next SeekPrefix(p) works as on a new iterator. *)
Lemma C62_rewound_proof {V} `{GoZero V} (h : heap V) (root : addr) it p :
  rewound h (newIter root) it -> seekPrefix h it p = seekPrefix h (newIter root) p.
Proof.
  intros Hu. assert (E : it_node it = Some (RN root)); [|unfold seekPrefix, newIter; by rewrite E].
  induction Hu as [|it it' Hu IH E|it r it' Hu IH E]; [done|..].
  - unfold seekPrefix in E. rewrite IH in E. cbn [length Nat.add seekLoop] in E. destruct (h_nodes h !! root) as [n|]; [|done].
    destruct (negb _ && _); cbn [obind] in E; [|by injection E as <-].
    destruct (prefixMismatch _ _ _ _ _) as [x| |] eqn:Ex; cbn [obind] in E; try done. destruct (Nat.ltb x (n_plen n)) eqn:Elt; cbn [obind] in E; [by injection E as <-|].
    rewrite lookup_nil in E. by injection E as <-.
  - unfold iterNext in E. destruct (nextLoop _ _ _ _) as [[r' st]| |]; cbn in E; try done. by injection E as <- <-.
Qed.

(** *** C62, lower bound iterator, on any heap: after any use, either every further SeekLowerBound works as on a new iterator, or
    every further one finds nothing. *)
Lemma C62_lower_proof {V} `{GoZero V} (h : heap V) (root : addr) it : lused h (newLowerIter root) it ->
  (forall k, seekLowerBound h it k = seekLowerBound h (newLowerIter root) k) \/
  (forall k, exists it', seekLowerBound h it k = Ok it' /\ yields (lowerNext h) it' []).
Proof.
  intros Hu. assert (E : li_node it = Some root \/ li_node it = None).
  { induction Hu as [|it k it' Hu IH E|it r it' Hu IH E]; [by left|..].
    - unfold seekLowerBound in E. destruct k as [|c k]; [injection E as <-; done|].
      destruct (lowerLoop _ _ _ _ _ _ _ _) as [[st []]| |]; cbn [obind] in E; try done; injection E as <-; [by right|done].
    - unfold lowerNext in E. destruct (lowerNextLoop _ _ _) as [[r' st]| |]; cbn in E; try done. by injection E as <- <-. }
  destruct E as [E|E]; [left|right]; intros k; unfold seekLowerBound; rewrite E; [done|].
  destruct k as [|c k].
  - eexists. split; [done|]. eapply yields_nil. unfold lowerNext, walk_fuel. cbn. reflexivity.
  - rewrite Nat.add_comm. cbn [Nat.add lowerLoop obind]. eexists. split; [done|]. eapply yields_nil. unfold lowerNext, walk_fuel. cbn. reflexivity.
Qed.

(** *** C62, reverse iterator, on any heap: SeekReverseLowerBound can be called once.  After it, and after any further use, another
    SeekReverseLowerBound finds nothing and SeekPrefix panics. *)
Lemma C62_reverse_proof {V} `{GoZero V} (h : heap V) (root : addr) it k spare it1 it2 :
  rused h (newRevIter root) it -> seekReverseLowerBound h it k spare = Ok it1 -> rused h it1 it2 ->
  (forall k' spare', exists it3, seekReverseLowerBound h it2 k' spare' = Ok it3 /\ yields (prev h) it3 []) /\
  (forall p, revSeekPrefix h it2 p = Panic).
Proof.
  intros _ E Hu. assert (E1 : it_node (ri_it it1) = None).
  { unfold seekReverseLowerBound in E. destruct (revLoop _ _ _ _ _ _ _ _ _ _) as [[st ex]| |]; cbn [obind] in E; try done. by injection E as <-. }
  clear E. assert (E2 : it_node (ri_it it2) = None).
  { induction Hu as [|it' p it'' Hu IH E|it' k' sp it'' Hu IH E|it' r it'' Hu IH E]; [done|..].
    - unfold revSeekPrefix, seekPrefix in E. rewrite IH in E. done.
    - unfold seekReverseLowerBound in E. destruct (revLoop _ _ _ _ _ _ _ _ _ _) as [[st ex]| |]; cbn [obind] in E; try done. by injection E as <-.
    - unfold prev in E. destruct (prevLoop _ _ _ _ _) as [[r' st]| |]; cbn [obind] in E; try done. by injection E as <- <-. }
  split.
  - intros k' spare'. unfold seekReverseLowerBound. rewrite E2, Nat.add_comm. cbn [Nat.add revLoop obind]. eexists. split; [done|].
    eapply yields_nil. unfold prev, walk_fuel. cbn. reflexivity.
  - intros p. unfold revSeekPrefix, seekPrefix. by rewrite E2.
Qed.

Local Open Scope string_scope.
Definition ex_reuse : list (op nat) := [I "aaa" 1; I "aab" 2; I "ab" 3; I "b" 4].
(** *** C62 is false in general: seeking the same prefix twice loses a key. *)
Lemma C62_refuted_proof : exists (os : list (op nat)) h t rs p it1 it2 l k v,
  Forall (fun o => valid_key (op_key o) /\ is_insert o) os /\ build os h t rs /\ valid_key p /\
  seekPrefix h (newIter (r_root t)) p = Ok it1 /\ seekPrefix h it1 p = Ok it2 /\ yields (iterNext h) it2 l /\
  ref_ops os ∅ !! k = Some v /\ has_prefix k p = true /\ ~ (k, v) ∈ l.
Proof.
  exists ex_reuse. do 3 eexists. exists (B "aa"). do 3 eexists. exists (B "aab"), 2.
  split; [valid|]. split; [apply build_intro; vc|]. split; [valid|]. split; [vc|]. split; [vc|].
  split; [apply (drain_yields 5); vc|]. split; [vc|]. split; [vc|]. apply (bool_decide_unpack _). vc.
Qed.
(** *** C62, lower bound iterator: a seek beyond the last key leaves an iterator that finds nothing any more. *)
Lemma C62_lower_refuted_proof : exists (os : list (op nat)) h t rs k1 k2 it1 it2 it l,
  Forall (fun o => valid_key (op_key o) /\ is_insert o) os /\ build os h t rs /\ valid_key k1 /\ valid_key k2 /\
  seekLowerBound h (newLowerIter (r_root t)) k1 = Ok it1 /\ seekLowerBound h it1 k2 = Ok it2 /\ yields (lowerNext h) it2 [] /\
  seekLowerBound h (newLowerIter (r_root t)) k2 = Ok it /\ yields (lowerNext h) it l /\ l <> [].
Proof.
  exists [I "ab" 1; I "ac" 2]. do 3 eexists. exists (B "b"), (B "ab"). do 4 eexists.
  split; [valid|]. split; [apply build_intro; vc|]. split; [valid|]. split; [valid|]. split; [vc|]. split; [vc|].
  split; [apply (drain_yields 5); vc|]. split; [vc|]. split; [apply (drain_yields 5); vc|]. done.
Qed.
Example ex_C62 : tame ex_reuse 0 /\ exists h t rs it it' it1 it2, build ex_reuse h t rs /\ used h (newIter (r_root t)) it /\
  seekPrefix h it (B "aa") = Ok it' /\ yields (iterNext h) it' [(B "aaa", 1)] /\
  rewound h (newIter (r_root t)) it1 /\ it1 <> newIter (r_root t) /\ seekPrefix h it1 (B "aa") = Ok it2 /\ yields (iterNext h) it2 [(B "aaa", 1); (B "aab", 2)].
Proof.
  split; [apply tameb_start; by vm_compute|]. do 7 eexists. split; [apply build_intro; vm_compute; reflexivity|].
  split. { eapply (used_seek _ _ _ (B "aa")); [apply used_start|repeat constructor; vm_compute; lia|vm_compute; reflexivity]. }
  split; [vm_compute; reflexivity|]. split; [apply (drain_yields 5); vm_compute; reflexivity|].
  split. { eapply rewound_next; [eapply rewound_seek; [apply rewound_start|vm_compute; reflexivity]|vm_compute; reflexivity]. }
  split; [done|]. split; [vm_compute; reflexivity|]. apply (drain_yields 5); vm_compute; reflexivity.
Qed.
(** The first case of C62_lower: after a seek and a Next, seeking again works (the second case is in C62_lower_refuted). *)
Example ex_C62_lower : exists h t rs it it1 it2, build ex_reuse h t rs /\ lused h (newLowerIter (r_root t)) it /\ it <> newLowerIter (r_root t) /\
  seekLowerBound h (newLowerIter (r_root t)) (B "aab") = Ok it1 /\ yields (lowerNext h) it1 [(B "aab", 2); (B "ab", 3); (B "b", 4)] /\
  seekLowerBound h it (B "aab") = Ok it2 /\ yields (lowerNext h) it2 [(B "aab", 2); (B "ab", 3); (B "b", 4)].
Proof.
  do 6 eexists. split; [apply build_intro; vm_compute; reflexivity|].
  split. { eapply lused_next; [eapply (lused_seek _ _ _ (B "aab")); [apply lused_start|vm_compute; reflexivity]|vm_compute; reflexivity]. }
  split; [done|]. split; [vm_compute; reflexivity|]. split; [apply (drain_yields 5); vm_compute; reflexivity|]. split; [vm_compute; reflexivity|].
  apply (drain_yields 5); vm_compute; reflexivity.
Qed.
Example ex_C62_reverse : exists h t rs it1 it3, build ex_reuse h t rs /\ rused h (newRevIter (r_root t)) (newRevIter (r_root t)) /\
  seekReverseLowerBound h (newRevIter (r_root t)) (B "ab") [] = Ok it1 /\ rused h it1 it1 /\
  yields (prev h) it1 [(B "ab", 3); (B "aab", 2); (B "aaa", 1)] /\ 
  seekReverseLowerBound h it1 (B "ab") [] = Ok it3 /\ yields (prev h) it3 [] /\ revSeekPrefix h it1 (B "a") = Panic.
Proof.
  do 5 eexists. split; [apply build_intro; vm_compute; reflexivity|]. split; [apply rused_start|]. split; [vm_compute; reflexivity|]. split; [apply rused_start|].
  split; [apply (drain_yields 5); vm_compute; reflexivity|]. split; [vm_compute; reflexivity|]. split; [apply (drain_yields 5); vm_compute; reflexivity|]. vm_compute; reflexivity.
Qed.
