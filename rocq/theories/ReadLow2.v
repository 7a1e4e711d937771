(** Which keys below the bound the lower bound iterator may yield, and when SeekLowerBound does not panic. *)
From Verif Require Export ReadLow Thin.
From stdpp Require Import list.
Local Open Scope nat_scope.

Section ReadLow2.
Context {V : Type} `{GoZero V}.
Notation art := (art V).

(** ** Subtrees *)
Lemma under_prefix p (t : art) q u : under p t q u -> p `prefix_of` q.
Proof. induction 1 as [|p a pre lf kids b t q u Hbt Hu IH]; [done|]. etrans; [|exact IH]. by apply prefix_app_r. Qed.
Lemma under_rep (h : heap V) p t q u : under p t q u -> rep h p t -> rep h q u.
Proof.
  induction 1 as [|p a pre lf kids b t q u Hbt Hu IH]; intros Hr; [done|]. apply IH.
  apply rep_inv in Hr as (n & Hn & Hlt & He & Hpl & Hlf & Hk1 & Hk2 & Hk3 & Hst & Hkids). auto.
Qed.
Lemma under_sub p (t : art) q u kv : under p t q u -> kv ∈ leaves u -> kv ∈ leaves t.
Proof. induction 1 as [|p a pre lf kids b t q u Hbt Hu IH]; intros Hin; [done|]. apply (kid_sub a pre lf kids b t Hbt). auto. Qed.
Lemma under_thin p (t : art) q u w : under p t q u -> thin q u w -> thin p t w.
Proof. induction 1 as [|p a pre lf kids b t q u Hbt Hu IH]; intros Hw; [done|]. eapply thin_kid; [exact Hbt|]. auto. Qed.
Lemma under_keys (h : heap V) p t q u k v : under p t q u -> rep h p t -> (k, v) ∈ leaves t -> q `prefix_of` k -> (k, v) ∈ leaves u.
Proof.
  induction 1 as [|p a pre lf kids b t q u Hbt Hu IH]; intros Hr Hin Hq; [done|]. pose proof Hr as Hr0. pose proof (rep_sorted _ _ _ _ _ _ Hr) as Hnd.
  apply rep_inv in Hr as (n & Hn & Hlt & He & Hpl & Hlf & Hk1 & Hk2 & Hk3 & Hst & Hkids).
  pose proof (under_prefix _ _ _ _ Hu) as Hp. assert (Hpk : (p ++ pre ++ [b]) `prefix_of` k) by (by etrans).
  apply IH; [by apply Hkids| |done]. apply elem_leaves in Hin as [[la ->]|(b' & t' & Hbt' & Hin)].
  - exfalso. destruct (Hk3 _ _ _ eq_refl) as [_ Hx]. destruct Hx as [-> Hd]; [by intros ->; apply elem_of_nil in Hbt|].
    apply prefix_app_inv, prefix_app_inv, prefix_cons_inv_1 in Hpk as ->. apply Hd. apply elem_of_list_fmap. by exists (dollar, t).
  - pose proof (rep_leaves_kid _ _ _ _ _ _ _ _ _ _ Hr0 Hbt' Hin) as Hpk'.
    assert (b' = b) as ->. { destruct Hpk as [x ->], Hpk' as [y E]. rewrite <- !app_assoc in E. apply app_inv_head, app_inv_head in E. cbn in E. congruence. }
    apply elem_of_list_lookup in Hbt as (i & Hi). apply elem_of_list_lookup in Hbt' as (j & Hj).
    assert (i = j) as ->. { eapply (NoDup_lookup kids.*1); [done|rewrite list_lookup_fmap, Hi; done|rewrite list_lookup_fmap, Hj; done]. }
    rewrite Hi in Hj. by injection Hj as ->.
Qed.

(** ** Branching *)
Lemma slim_kids (h : heap V) p a pre lf kids b t : rep h p (Art a pre lf kids) -> pfL (leaves (Art a pre lf kids)) -> (forall w, ~ thin p (Art a pre lf kids) w) ->
  (b, t) ∈ kids -> lf = None /\ exists b' t', (b', t') ∈ kids /\ b' <> b.
Proof.
  intros Hr Hpf Hth Hbt. assert (Hne : kids <> []) by (intros ->; by apply elem_of_nil in Hbt). pose proof (pf_bare _ _ _ _ _ _ Hr Hpf Hne) as ->. split; [done|].
  pose proof (rep_sorted _ _ _ _ _ _ Hr) as Hnd. destruct kids as [|[b1 t1] [|[b2 t2] kids]]; [done| |].
  - destruct (Hth _ (thin_here _ _ _ _ _)).
  - cbn in Hnd. apply NoDup_cons in Hnd as [Hn1 _]. destruct (decide (b1 = b)) as [->|Hb].
    + exists b2, t2. split; [right; left|]. intros ->. apply Hn1. left.
    + exists b1, t1. split; [left|done].
Qed.
Lemma slim_two (h : heap V) p t k v : rep h p t -> pfL (leaves t) -> (forall w, ~ thin p t w) -> ~ holder t -> (k, v) ∈ leaves t ->
  exists k' v', (k', v') ∈ leaves t /\ k' <> k.
Proof.
  intros Hr Hpf Hth Hho Hin. destruct t as [a pre lf kids]. cbn in Hho. pose proof Hr as Hr0.
  apply elem_leaves in Hin as [[la ->]|(b & t & Hbt & Hin)]; [by discriminate (pf_bare _ _ _ _ _ _ Hr Hpf Hho)|].
  destruct (slim_kids _ _ _ _ _ _ _ _ Hr Hpf Hth Hbt) as (_ & b' & t' & Hbt' & Hb).
  apply rep_inv in Hr as (n & Hn & Hlt & He & Hpl & Hlf & Hk1 & Hk2 & Hk3 & Hst & Hkids).
  destruct (rep_nonempty _ _ _ (Hkids _ _ Hbt')) as (k' & v' & Hin'). exists k', v'. split; [apply elem_leaves; eauto|]. intros ->.
  destruct (rep_leaves_kid _ _ _ _ _ _ _ _ _ _ Hr0 Hbt Hin) as [x ->]. destruct (rep_leaves_kid _ _ _ _ _ _ _ _ _ _ Hr0 Hbt' Hin') as [y E].
  rewrite <- !app_assoc in E. apply app_inv_head, app_inv_head in E. cbn in E. congruence.
Qed.
Lemma nodollar_prefix q (k : bytes) : opn q -> q `prefix_of` k ++ [dollar] -> q `prefix_of` k.
Proof.
  intros Hq [x E]. destruct x as [|y x _] using rev_ind.
  - rewrite app_nil_r in E. subst q. apply opn_nodollar in Hq. unfold nodollar in Hq. rewrite Forall_app, Forall_singleton in Hq. tauto.
  - rewrite app_assoc in E. apply app_inj_tail in E as [-> _]. by apply prefix_app_r.
Qed.
Lemma overshoot_hidden (h : heap V) (t : art) (m : gmap (list nat) V) k k' : rep h [] t -> contents t m -> prefix_free m -> (forall w, ~ thin [] t w) ->
  overshoot t (k ++ [dollar]) (k' ++ [dollar]) -> hidden m k k'.
Proof.
  intros Hr Hc Hpf Hth (q & a & pre & lf & kids & b & t' & v & Hu & Hpre & Hqk & Hbt & Hho & Hin).
  pose proof (under_rep _ _ _ _ _ Hu Hr) as Hru. pose proof Hru as Hru0. pose proof (contents_pfL _ _ Hc Hpf) as HpL.
  assert (HpU : pfL (leaves (Art a pre lf kids))) by (eapply pfL_sub; [|exact HpL]; intros ?; by apply under_sub with (1 := Hu)).
  assert (HthU : forall w, ~ thin q (Art a pre lf kids) w) by (intros w Hw; by apply (Hth w), (under_thin _ _ _ _ _ Hu)).
  assert (HpT : pfL (leaves t')) by (eapply pfL_sub; [|exact HpU]; by apply kid_sub with (b := b)).
  assert (HthT : forall w, ~ thin (q ++ pre ++ [b]) t' w) by (intros w Hw; apply (HthU w); by eapply thin_kid).
  destruct (slim_kids _ _ _ _ _ _ _ _ Hru HpU HthU Hbt) as (-> & b2 & t2 & Hbt2 & Hb2).
  apply rep_inv in Hru as (n & Hn & Hlt & He & Hpl & Hlf & Hk1 & Hk2 & Hk3 & Hst & Hkids).
  assert (Hne : kids <> []) by (intros ->; by apply elem_of_nil in Hbt). destruct (Hk1 Hne) as (_ & _ & Hnod).
  destruct (slim_two _ _ _ _ _ (Hkids _ _ Hbt) HpT HthT Hho Hin) as (k2 & v2 & Hin2 & Hk2').
  destruct (rep_nonempty _ _ _ (Hkids _ _ Hbt2)) as (kj & vj & Hinj).
  assert (Hstored : forall b t k v, (b, t) ∈ kids -> (k, v) ∈ leaves t -> exists k0, k = k0 ++ [dollar] /\ m !! k0 = Some v).
  { intros b0 t0 k0 v0 Hb0 Hin0. apply Hc. apply (under_sub _ _ _ _ _ Hu). apply elem_leaves. eauto. }
  destruct (Hstored _ _ _ _ Hbt Hin) as (k0 & E & Hm). apply app_inj_tail in E as [<- _].
  destruct (Hstored _ _ _ _ Hbt Hin2) as (k2' & -> & Hm2). destruct (Hstored _ _ _ _ Hbt2 Hinj) as (j & -> & Hmj).
  pose proof (rep_leaves_kid _ _ _ _ _ _ _ _ _ _ Hru0 Hbt Hin) as Hp1. pose proof (rep_leaves_kid _ _ _ _ _ _ _ _ _ _ Hru0 Hbt Hin2) as Hp2.
  pose proof (rep_leaves_kid _ _ _ _ _ _ _ _ _ _ Hru0 Hbt2 Hinj) as Hpj.
  assert (Hkk : k2' <> k') by (by intros ->).
  rewrite app_assoc in Hp1, Hp2, Hpj.
  assert (Hd1 : (q ++ pre) ++ [b] `prefix_of` k' /\ (q ++ pre) ++ [b] `prefix_of` k2').
  { pose proof (snoc_prefix_inv _ _ _ Hp1) as H1. pose proof (snoc_prefix_inv _ _ _ Hp2) as H2. destruct H1 as [[-> E1]|[x1 E1]].
    - exfalso. destruct H2 as [[_ E2]|[x2 E2]]; [congruence|]. subst k2'. assert (E3 : q ++ pre = (q ++ pre) ++ dollar :: x2).
      { rewrite <- E1 at 1. apply Hpf; [eauto..|]. rewrite E1. by apply prefix_app_r. } apply (f_equal length) in E3. rewrite !app_length in E3. cbn in E3. lia.
    - destruct H2 as [[_ E2]|[x2 E2]].
      + exfalso. apply Hkk. apply Hpf; [eauto..|]. rewrite E2, E1. by apply prefix_app_r.
      + split; [exists x1|exists x2]; by rewrite ?E1, ?E2, <- !app_assoc. }
  exists q, pre, b, j, k2'. split; [done|]. split; [by apply nodollar_prefix|]. split.
  { intros i [vi Hi] Hqi. assert (Hii : (i ++ [dollar], vi) ∈ leaves t) by (apply Hc; eauto).
    apply (under_keys h _ _ _ _ _ _ Hu Hr) in Hii; [|etrans; [exact Hqi|by apply prefix_app_r]].
    apply elem_leaves in Hii as [[la ?]|(b0 & t0 & Hb0 & Hi0)]; [done|]. pose proof (rep_leaves_kid _ _ _ _ _ _ _ _ _ _ Hru0 Hb0 Hi0) as Hp0.
    apply nodollar_prefix; [done|]. by eapply app3_prefix. }
  split; [eauto|]. split.
  { apply nodollar_prefix; [done|]. etrans; [|exact Hpj]. by apply prefix_app_r. }
  rewrite app_assoc. split.
  { intros [x E]. destruct Hpj as [y E2]. rewrite E in E2. rewrite <- !app_assoc in E2. apply app_inv_head, app_inv_head in E2. cbn in E2. congruence. }
  split; [done|]. split; [eauto|]. tauto.
Qed.

(** ** No panic *)
Lemma prefixMismatch_total (h : heap V) p a pre lf kids n path depth : rep h p (Art a pre lf kids) -> h_nodes h !! a = Some n -> (kids = [] \/ length pre <= maxPrefixLen) ->
  exists d, prefixMismatch h a n path depth = Ok d.
Proof.
  intros Hr Hn Hor. pose proof (rep_isLeaf _ _ _ _ _ _ _ Hr Hn) as Hil. apply rep_inv in Hr as (n' & Hn' & Hlt & He & Hpl & Hlf & Hk1 & Hk2 & Hk3 & Hst & Hkids).
  assert (n' = n) as -> by congruence. unfold prefixMismatch.
  destruct (cmp_loop_total ((maxPrefixLen `min` n_plen n) `min` (length path - depth)) 0 ((maxPrefixLen `min` n_plen n) `min` (length path - depth)) (n_partial n) path depth) as [d ->]; [lia|lia|].
  cbn [obind]. destruct (Nat.ltb d _); [eauto|]. destruct (Nat.ltb_spec maxPrefixLen (n_plen n)); [|eauto].
  destruct (decide (kids = [])) as [Ek|Hne]; [|destruct Hor; [done|]; destruct (Hk1 Hne) as [? _]; lia].
  destruct (Hk2 Ek) as (la & k & v & -> & _). destruct Hlf as (E1 & _ & l & E2 & _). rewrite bool_decide_true in Hil by done.
  unfold walk_fuel. cbn [minimum]. rewrite Hn', Hil, E1. cbn [obind]. rewrite E2. apply cmp_loop_total; [rewrite drop_length; lia|lia].
Qed.
Lemma pushKids_total (h : heap V) path np n q kids : enc n (ents kids) -> sortedkind (n_kind n) = true -> (forall b t, (b, t) ∈ kids -> rep h (q b) t) ->
  forall is stack, (forall i, i ∈ is -> i < length kids) -> exists s', pushKids h path np n is stack = Ok s'.
Proof.
  intros He Hk Hkids is. induction is as [|i is IH]; intros stack Hi; cbn [pushKids]; [eauto|].
  destruct (lookup_lt_is_Some_2 kids i) as [[b t] Hb]; [apply Hi; left|].
  destruct (sorted_child n _ _ _ He Hk (ents_lookup _ _ _ _ Hb)) as [-> _]. cbn [obind snd]. apply elem_of_list_lookup_2 in Hb. pose proof (Hkids _ _ Hb) as Hr.
  destruct t as [c pre lf kids2]. cbn [aroot]. pose proof Hr as Hr0. apply rep_inv in Hr as (m & Hm & _). unfold nodeOf. rewrite Hm. cbn [obind].
  rewrite (leafOf_rep _ _ _ _ _ _ _ Hr0 Hm). cbn [obind]. apply IH. intros j Hj. apply Hi. by right.
Qed.
Lemma pushParent_total (h : heap V) path np par stack : par_ok h par -> (np = true -> par <> None) -> exists s', pushParent h path np par stack = Ok s'.
Proof.
  intros Hp Hn. destruct par as [q|]; cbn; [|destruct np; [by destruct Hn|eauto]]. destruct Hp as (pn & Hpn & Hl).
  unfold nodeOf, leafOf. rewrite Hpn. cbn [obind]. rewrite Hl. cbn. eauto.
Qed.
Lemma takePartial_ok n (pre : bytes) : n_plen n = length pre -> length (n_partial n) = maxPrefixLen -> length pre <= maxPrefixLen -> exists part, takePartial n = Ok part.
Proof. intros E1 E2 E3. unfold takePartial. rewrite (proj2 (Nat.leb_le _ _)) by lia. eauto. Qed.
Lemma lower_ch_total n (kids : list (nat * art)) c : enc n (ents kids) -> sortedkind (n_kind n) = true -> exists o, getLowerBoundCh n c = Ok o.
Proof. intros He Hk. unfold getLowerBoundCh. destruct (n_kind n); cbn in Hk; try done; destruct (Nat.ltb _ _); eauto. Qed.

Lemma lowerLoop_total (h : heap V) path t : forall fuel p par depth seen stack, rep h p t -> pfL (leaves t) -> narrowL (leaves t) ->
  (forall q a pre lf kids, under p t q (Art a pre lf kids) -> kids <> [] -> length pre <= maxPrefixLen) -> par_ok h par ->
  (par = None -> seen = false /\ exists a lf kids, t = Art a [] lf kids /\ kids <> []) -> depth <= length path -> length path - depth < fuel ->
  exists r, lowerLoop fuel h path (Some (aroot t)) par depth seen stack = Ok r.
Proof.
  induction t as [a pre lf kids IH] using art_ind'. intros fuel p par depth seen stack Hr Hpf Hnl Hsh Hpar Hroot Hdp Hf.
  destruct fuel as [|fuel]; [lia|]. pose proof Hr as Hr0.
  apply rep_inv in Hr as (n & Hn & Hlt & He & Hpl & Hlf & Hk1 & Hk2 & Hk3 & Hst & Hkids).
  pose proof (narrow_kind _ _ _ _ _ _ _ Hr0 Hnl Hn) as Hk. pose proof (rep_isLeaf _ _ _ _ _ _ _ Hr0 Hn) as Hil.
  assert (Hnch : n_nch n = length kids) by (rewrite (enc_nch_sorted _ _ He Hk); unfold ents; by rewrite map_length).
  assert (Pkeep : forall np st0, (np = true -> par <> None) -> exists r, keepNode (pushParent h path np par st0) = Ok r).
  { intros np st0 Hnp. destruct (pushParent_total h path np par st0 Hpar Hnp) as [s' E]. unfold keepNode. rewrite E. cbn. eauto. }
  cbn [lowerLoop aroot]. unfold nodeOf at 1. rewrite Hn. cbn [obind]. rewrite (leafOf_rep _ _ _ _ _ _ _ Hr0 Hn). cbn [obind]. rewrite Hil.
  assert (Hmis : exists m, prefixMismatch h a n path depth = Ok m /\ (par = None -> m = 0)).
  { destruct (prefixMismatch_total h p a pre lf kids n path depth Hr0 Hn) as [m Em].
    { destruct (decide (kids = [])); [by left|right]. eapply Hsh; [apply under_refl|done]. }
    exists m. split; [done|]. intros Hnone. destruct (Hroot Hnone) as (_ & a0 & lf0 & kids0 & [= -> -> -> ->] & Hne). destruct (Hk1 Hne) as [Hpn _]. cbn in Hpn.
    unfold prefixMismatch in Em. rewrite Hpn in Em. rewrite Nat.min_0_r in Em. cbn in Em. by injection Em as <-. }
  destruct Hmis as (m & Em & Hm0).
  destruct (decide (kids = [])) as [Ekids|Hne].
  - rewrite bool_decide_true by done. cbn [obind]. destruct (Hk2 Ekids) as (la & k & v & -> & _). cbn [andb].
    assert (Hpn : par <> None) by (intros E; destruct (Hroot E) as (_ & a0 & lf0 & kids0 & E0 & Hx); injection E0 as _ _ _ E3; congruence).
    destruct (bytes_geb k path) eqn:Eg; [by apply Pkeep|]. rewrite Em. cbn [obind].
    destruct (Nat.ltb m (n_plen n) && negb seen); [eauto|]. destruct (path !! (depth + n_plen n)) as [c|]; [|by apply Pkeep].
    destruct (getLowerBoundCh n c) as [o| |] eqn:Eo; [|by destruct (lower_ch_total n kids c He Hk) as [o Eo']; congruence..].
    cbn [obind]. destruct (lower_ch _ _ _ _ He Hk Eo) as (k1 & k2 & Ek & _ & _ & ->). rewrite Ekids in Ek. symmetry in Ek. apply app_nil in Ek as [-> ->].
    destruct (negb (seen || Nat.ltb 0 m)); [eauto|]. rewrite ?Eg. cbn [obind]. by apply Pkeep.
  - pose proof (pf_bare _ _ _ _ _ _ Hr0 Hpf Hne) as ->. destruct (Hk1 Hne) as (Hpn & Hpt & Hnod).
    rewrite bool_decide_false by done. cbn [andb].
    assert (Hple : length pre <= maxPrefixLen) by (eapply Hsh; [apply under_refl|done]).
    destruct (takePartial_ok n pre Hpn Hpl Hple) as [part ->]. cbn [obind].
    destruct (Nat.ltb_spec (length path) depth) as [|_]; [lia|]. cbn [obind].
    assert (Hgo : exists r, (let? m := prefixMismatch h a n path depth in
       if Nat.ltb m (n_plen n) && negb seen then Ok (stack, false) else
       let seen0 := seen || Nat.ltb 0 m in
       let depth0 := depth + n_plen n in
       match path !! depth0 with
       | None => keepNode (pushParent h path false par (pushFound path a None stack))
       | Some c =>
          let? idx := getLowerBoundCh n c in
          match idx with
          | None =>
              if negb seen0 then Ok (stack, false) else
              let? stack := pushKids h path true n (reverse (seq 0 (n_nch n))) stack in
              keepNode (pushParent h path true par stack)
          | Some idx =>
              let idx := if seen0 then 0 else idx in
              let? pl := (match par with None => Ok None | Some p => let? pn := nodeOf h p in leafOf h pn end) in
              match seen0, pl with
              | true, Some (pla, pk) =>
                  let? stack := pushKids h path false n (reverse (seq 0 (n_nch n))) stack in
                  Ok (if bytes_geb pk path then Some (RL pla) :: stack else stack, false)
              | _, _ =>
                  let? stack := pushKids h path false n (reverse (seq (idx + 1) (n_nch n - (idx + 1)))) stack in
                  let? k := getKeyAtIdx n idx in
                  let seen := seen0 || negb (Nat.eqb k c) in
                  let? ch := getChild n idx in
                  lowerLoop fuel h path ch (Some a) (depth0 + 1) seen stack
              end
          end
       end) = Ok r).
    { rewrite Em. cbn [obind]. destruct (Nat.ltb m (n_plen n) && negb seen); [eauto|]. cbn zeta.
      destruct (path !! (depth + n_plen n)) as [c|] eqn:Ec; [|by apply Pkeep].
      destruct (getLowerBoundCh n c) as [o| |] eqn:Eo; [|by destruct (lower_ch_total n kids c He Hk) as [o Eo']; congruence..]. cbn [obind].
      destruct (lower_ch _ _ _ _ He Hk Eo) as (k1 & k2 & Ek & Hb1 & Hb2 & ->).
      destruct k2 as [|kt k2].
      - destruct (negb (seen || Nat.ltb 0 m)) eqn:En; [eauto|].
        destruct (pushKids_total h path true n (fun b => p ++ pre ++ [b]) kids He Hk Hkids (reverse (seq 0 (n_nch n))) stack) as [s' ->].
        { intros i Hi. apply elem_of_reverse, elem_of_seq in Hi. lia. }
        cbn [obind]. apply Pkeep. intros _ Hnone. destruct (Hroot Hnone) as [-> _]. rewrite (Hm0 Hnone) in En. done.
      - set (idx := if seen || Nat.ltb 0 m then 0 else length k1).
        assert (Hidx : idx < length kids) by (rewrite Ek, app_length; cbn; unfold idx; destruct (seen || Nat.ltb 0 m); lia).
        assert (Hpl0 : (match par with None => Ok None | Some q => let? pn := nodeOf h q in leafOf h pn end) = Ok (None : option (addr * bytes))).
        { destruct par as [q|]; [|done]. destruct Hpar as (pn & Hpn' & Hpl'). unfold nodeOf. rewrite Hpn'. cbn [obind]. unfold leafOf. by rewrite Hpl'. }
        rewrite Hpl0. cbn [obind].
        replace (match seen || Nat.ltb 0 m with true | _ => _ end) with (let? stack0 := pushKids h path false n (reverse (seq (idx + 1) (n_nch n - (idx + 1)))) stack in
                  let? k := getKeyAtIdx n idx in let? ch := getChild n idx in
                  lowerLoop fuel h path ch (Some a) (depth + n_plen n + 1) ((seen || Nat.ltb 0 m) || negb (Nat.eqb k c)) stack0) by (by destruct (seen || Nat.ltb 0 m)).
        destruct (pushKids_total h path false n (fun b => p ++ pre ++ [b]) kids He Hk Hkids (reverse (seq (idx + 1) (n_nch n - (idx + 1)))) stack) as [s' ->].
        { intros i Hi. apply elem_of_reverse, elem_of_seq in Hi. lia. }
        cbn [obind]. destruct (lookup_lt_is_Some_2 kids idx Hidx) as [[b t] Hb].
        destruct (sorted_child _ _ _ _ He Hk (ents_lookup _ _ _ _ Hb)) as [Eg1 Eg2]. rewrite Eg1, Eg2. cbn [obind fst snd]. apply elem_of_list_lookup_2 in Hb.
        apply lookup_lt_Some in Ec.
        apply (IH b t Hb fuel (p ++ pre ++ [b])); [by apply Hkids| | | | |done|lia|lia].
        + eapply pfL_sub; [|exact Hpf]. by apply (kid_sub a pre None kids b).
        + eapply narrowL_sub; [|exact Hnl]. by apply (kid_sub a pre None kids b).
        + intros q a' pre' lf' kids' Hu. apply (Hsh q a' pre' lf' kids'). by eapply under_kid.
        + cbn. exists n. done. }
    destruct (if Nat.ltb (n_plen n) (length path) then _ else _); [exact Hgo| |]; (destruct seen; [exact Hgo|]).
    + destruct (pushParent_total h path false par stack Hpar) as [s' ->]; [done|]. cbn. eauto.
    + by apply Pkeep.
Qed.

(** SeekLowerBound returns on forked maps with short runs, if the tree has no thin node. *)
Lemma rep_lower_total (h : heap V) (t : art) (m : gmap (list nat) V) k : rep h [] t -> contents t m ->
  prefix_free m -> narrow m -> forked m -> short_runs m -> (forall w, ~ thin [] t w) ->
  exists it, seekLowerBound h (newLowerIter (aroot t)) k = Ok it.
Proof.
  intros Hr Hc Hpf Hnar (c & c' & kc & kc' & Hcc & [v1 Hm1] & [v2 Hm2]) Hsh Hth. unfold seekLowerBound. destruct k as [|b k]; [eauto|]. cbn zeta. cbn [newLowerIter li_node].
  assert (HpL : pfL (leaves t)) by (by eapply contents_pfL).
  assert (Hlong : forall q a pre lf kids, under [] t q (Art a pre lf kids) -> kids <> [] -> length pre <= maxPrefixLen).
  { intros q a pre lf kids Hu Hne. destruct (Nat.le_gt_cases (length pre) maxPrefixLen) as [|Hgt]; [done|exfalso].
    pose proof (under_rep _ _ _ _ _ Hu Hr) as Hru. pose proof Hru as Hru0.
    assert (HpU : pfL (leaves (Art a pre lf kids))) by (eapply pfL_sub; [|exact HpL]; intros ?; by apply under_sub with (1 := Hu)).
    assert (HthU : forall w, ~ thin q (Art a pre lf kids) w) by (intros w Hw; by apply (Hth w), (under_thin _ _ _ _ _ Hu)).
    pose proof (pf_bare _ _ _ _ _ _ Hru HpU Hne) as ->.
    destruct (rep_nonempty _ _ _ Hru) as (x & vx & Hx). destruct (slim_two _ _ _ _ _ Hru HpU HthU Hne Hx) as (y & vy & Hy & Hxy).
    apply rep_inv in Hru as (n & Hn & Hlt & He & Hpl & Hlf & Hk1 & Hk2 & Hk3 & Hst & Hkids). destruct (Hk1 Hne) as (_ & _ & Hnod).
    assert (Hall : forall z vz, (z, vz) ∈ leaves (Art a pre None kids) -> (q ++ pre) `prefix_of` z).
    { intros z vz Hz. apply elem_leaves in Hz as [[la ?]|(b0 & t0 & Hb0 & Hz)]; [done|]. eapply app3_prefix. by eapply rep_leaves_kid. }
    pose proof (Hall _ _ Hx) as Hxp. pose proof (Hall _ _ Hy) as Hyp.
    apply (under_sub _ _ _ _ _ Hu) in Hx. apply Hc in Hx as (x0 & -> & Hmx). apply (under_sub _ _ _ _ _ Hu) in Hy. apply Hc in Hy as (y0 & -> & Hmy).
    assert (Hpw : (q ++ take 11 pre) `prefix_of` (q ++ pre)) by (apply prefix_app; exists (drop 11 pre); by rewrite take_drop).
    apply nodollar_prefix in Hxp; [|done]. apply nodollar_prefix in Hyp; [|done].
    destruct (Hsh q (take 11 pre) x0 y0) as (j & [vj Hmj] & Hqj & Hnj); [rewrite take_length; unfold maxPrefixLen in Hgt; lia|by intros ->|eauto..|by etrans|by etrans|].
    apply Hnj. etrans; [exact Hpw|]. assert (Hjj : (j ++ [dollar], vj) ∈ leaves t) by (apply Hc; eauto).
    apply (under_keys h _ _ _ _ _ _ Hu Hr) in Hjj; [|etrans; [exact Hqj|by apply prefix_app_r]]. apply nodollar_prefix; [done|]. by eapply Hall. }
  destruct (lowerLoop_total h (getTreeKey (b :: k)) t (length (getTreeKey (b :: k)) + 2) [] None 0 false []) as [[st cl] ->]; [done|done|by eapply contents_narrowL|exact Hlong|done| |lia|lia|cbn; eauto].
  intros _. split; [done|]. destruct t as [a pre lf kids]. exists a, lf, kids.
  assert (H1 : ((c :: kc) ++ [dollar], v1) ∈ leaves (Art a pre lf kids)) by (apply Hc; eauto).
  assert (H2 : ((c' :: kc') ++ [dollar], v2) ∈ leaves (Art a pre lf kids)) by (apply Hc; eauto).
  destruct (decide (kids = [])) as [->|Hne].
  { exfalso. destruct lf as [[[la k0] v0]|]; cbn in H1, H2; [|by apply elem_of_nil in H1]. apply elem_of_list_singleton in H1, H2. congruence. }
  split; [|done]. f_equal. pose proof (pf_bare _ _ _ _ _ _ Hr HpL Hne) as ->.
  destruct pre as [|x pre]; [done|exfalso]. apply elem_leaves in H1 as [[la ?]|(b1 & t1 & Hb1 & H1)]; [done|]. apply elem_leaves in H2 as [[la ?]|(b2 & t2 & Hb2 & H2)]; [done|].
  apply (rep_leaves_kid _ _ _ _ _ _ _ _ _ _ Hr Hb1) in H1 as [y1 E1]. apply (rep_leaves_kid _ _ _ _ _ _ _ _ _ _ Hr Hb2) in H2 as [y2 E2]. cbn in E1, E2. congruence.
Qed.
End ReadLow2.
