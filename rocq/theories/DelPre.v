(** DeletePrefix on memories without left-over pointers: the number of removed keys, and what can still be
    found afterwards. *)
From Verif Require Export ReadWalk Linear.
From stdpp Require Export list.
Local Open Scope nat_scope.

(** ** The compaction of the children (txn.go:490-513) *)
Fixpoint entr (idx : nat) (outs : list (option (option addr))) : list (nat * option addr) :=
  match outs with
  | [] => []
  | None :: outs' => entr (S idx) outs'
  | Some o :: outs' => (idx, o) :: entr (S idx) outs'
  end.
Lemma entr_app idx o1 o2 : entr idx (o1 ++ o2) = entr idx o1 ++ entr (idx + length o1) o2.
Proof.
  revert idx. induction o1 as [|[o|] o1 IH]; intros idx; cbn; [by rewrite Nat.add_0_r|..]; rewrite IH; by rewrite Nat.add_succ_r.
Qed.
Lemma entr_ge idx outs e : e ∈ entr idx outs -> idx <= e.1.
Proof.
  revert idx. induction outs as [|[o|] outs IH]; intros idx; cbn; [by intros ?%elem_of_nil|..].
  - intros [->|Hin]%elem_of_cons; [done|]. apply IH in Hin. lia.
  - intros Hin. apply IH in Hin. lia.
Qed.
Lemma find_entr idx outs i : (fun x => x.2.2) <$> list_find (fun e => e.1 = idx + i) (entr idx outs) = mjoin (outs !! i).
Proof.
  revert idx i. induction outs as [|o outs IH]; intros idx i; [by rewrite lookup_nil|]. destruct i as [|i].
  - cbn [lookup list_lookup]. rewrite Nat.add_0_r. destruct o as [o|]; cbn [entr mjoin option_join].
    + cbn. by rewrite decide_True.
    + destruct (list_find _ (entr (S idx) outs)) as [[j e]|] eqn:E; [|done]. exfalso. apply list_find_Some in E as (Hl & He & _).
      apply elem_of_list_lookup_2, entr_ge in Hl. lia.
  - cbn [lookup list_lookup]. specialize (IH (S idx) i). replace (idx + S i) with (S idx + i) by lia. destruct o as [o|]; cbn [entr]; [|done].
    cbn [list_find fst]. rewrite decide_False by (cbn; lia). etrans; [|exact IH]. clear. by destruct (list_find _ _) as [[]|].
Qed.

(** What slot i contributes. *)
Definition kept1 (cs : list (option addr)) (outs : list (option (option addr))) (i : nat) : list (option addr) :=
  match outs !! i with
  | Some (Some (Some a)) => [Some a]
  | Some (Some None) => []
  | _ => match cs !! i with Some c => [c] | None => [None] end
  end.
Definition keptl cs outs (is_ : list nat) : list (option addr) := concat (List.map (kept1 cs outs) is_).

Lemma compact_spec outs n0 len i n slow numCh :
  length (n_children n) = length (n_children n0) -> n_kind n = n_kind n0 -> drop i (n_children n) = drop i (n_children n0) ->
  slow <= i -> i + len <= length (n_children n0) ->
  let K := keptl (n_children n0) outs (seq i len) in
  exists C, compact_loop (entr 0 outs) n slow numCh (seq i len) = Ok (set_children n C, slow + length K, numCh + length K) /\
    length C = length (n_children n0) /\ take (slow + length K) C = take slow (n_children n) ++ K /\ slow + length K <= i + len.
Proof.
  revert i n slow numCh. induction len as [|len IH]; intros i n slow numCh Hl Hk Hd Hs Hlen; cbn [seq compact_loop keptl List.map concat].
  - exists (n_children n). cbn [length]. rewrite !Nat.add_0_r, app_nil_r. split; [by destruct n|]. done.
  - pose proof (find_entr 0 outs i) as Hf. cbn [plus] in Hf.
    assert (Hi : i < length (n_children n0)) by lia.
    assert (Hci : n_children n !! i = n_children n0 !! i).
    { pose proof (f_equal (fun l => l !! 0) Hd) as E. by rewrite !lookup_drop, Nat.add_0_r in E. }
    destruct (lookup_lt_is_Some_2 _ _ Hi) as [ci Hci0].
    assert (Hwrite : forall c, kept1 (n_children n0) outs i = [c] ->
      (exists C, (let? n1 := setChildN n slow c in compact_loop (entr 0 outs) n1 (slow + 1) (numCh + 1) (seq (S i) len)) =
        Ok (set_children n C, slow + length (keptl (n_children n0) outs (i :: seq (S i) len)), numCh + length (keptl (n_children n0) outs (i :: seq (S i) len))) /\
        length C = length (n_children n0) /\
        take (slow + length (keptl (n_children n0) outs (i :: seq (S i) len))) C = take slow (n_children n) ++ keptl (n_children n0) outs (i :: seq (S i) len) /\
        slow + length (keptl (n_children n0) outs (i :: seq (S i) len)) <= i + S len)).
    { intros c Hc. unfold setChildN. destruct (Nat.ltb_spec slow (length (n_children n))); [|lia]. cbn [obind].
      set (n1 := set_children n _).
      destruct (IH (S i) n1 (slow + 1) (numCh + 1)) as (C & E & HC1 & HC2 & HC3); cbn [n_children n_kind].
      - unfold n1. cbn. by rewrite insert_length.
      - done.
      - unfold n1. cbn. rewrite drop_insert_gt by lia. pose proof (f_equal (drop 1) Hd) as E. rewrite !drop_drop in E. by rewrite !Nat.add_1_r in E.
      - lia.
      - lia.
      - exists C. unfold keptl. cbn [List.map concat]. rewrite Hc. cbn [app length]. fold (keptl (n_children n0) outs (seq (S i) len)).
        rewrite E. split; [|split; [done|split; [|lia]]].
        + rewrite <- !Nat.add_assoc. done.
        + replace (slow + S (length (keptl (n_children n0) outs (seq (S i) len)))) with (slow + 1 + length (keptl (n_children n0) outs (seq (S i) len))) by lia.
          rewrite HC2. unfold n1. cbn [n_children set_children]. rewrite Nat.add_1_r, (take_S_r _ _ c) by (apply list_lookup_insert; lia).
          rewrite take_insert by lia. by rewrite <- app_assoc. }
    assert (Hnone : mjoin (outs !! i) = None -> kept1 (n_children n0) outs i = [ci]).
    { unfold kept1. intros E. rewrite Hci0. destruct (outs !! i) as [[[?|]|]|]; try done. }
    destruct (list_find _ (entr 0 outs)) as [[j [j' [a|]]]|] eqn:Ef; cbn in Hf.
    + apply Hwrite. unfold kept1. destruct (outs !! i) as [[o|]|]; cbn in Hf; try done. injection Hf as <-. done.
    + destruct (IH (S i) n slow numCh) as (C & E & HC1 & HC2 & HC3); [done|done| |lia|lia|].
      { pose proof (f_equal (drop 1) Hd) as E. rewrite !drop_drop in E. by rewrite !Nat.add_1_r in E. }
      exists C. assert (Hk1 : kept1 (n_children n0) outs i = []).
      { unfold kept1. destruct (outs !! i) as [[o|]|]; cbn in Hf; try done. by injection Hf as <-. }
      unfold keptl. cbn [List.map concat]. rewrite Hk1. cbn [app]. fold (keptl (n_children n0) outs (seq (S i) len)). split; [done|]. split; [done|]. split; [done|lia].
    + assert (Hg : getChild n i = Ok ci). { unfold getChild. rewrite Hci, Hci0. by destruct (n_kind n). }
      rewrite Hg. cbn [obind]. apply Hwrite. apply Hnone. done.
Qed.

(** ** Memories in which searches are harmless *)
Definition wfn (n : inode) : Prop :=
  length (n_partial n) = maxPrefixLen /\ length (n_keys n) = keycap_of (n_kind n) /\ length (n_children n) = cap_of (n_kind n) /\
  (sortedkind (n_kind n) = true -> n_nch n <= cap_of (n_kind n)) /\
  (n_kind n = K48 -> forall b i, n_keys n !! b = Some (S i) -> i < 48).

Lemma enc_wfn n es : enc n es -> length (n_partial n) = maxPrefixLen -> length es < 256 -> wfn n.
Proof.
  intros [Hso Hby Hnc Hkl Hcl Hca Hsh] Hp Hl. split; [done|]. split; [done|]. split; [done|]. split.
  - intros _. rewrite Hnc, u8_small by done. done.
  - intros Hk b i Hb. rewrite Hk in *. destruct Hsh as (Hs1 & _). pose proof (lookup_lt_Some _ _ _ Hb) as Hlt. rewrite Hkl in Hlt. cbn in Hlt.
    specialize (Hs1 b Hlt). destruct (alook es b); [|congruence]. destruct Hs1 as (j & Hj & Hcj). assert (j = i) as -> by congruence.
    apply lookup_lt_Some in Hcj. by rewrite Hcl in Hcj.
Qed.
Lemma wfn_find n c : wfn n -> c < 256 -> exists o i, findChild n c = Ok (o, i) /\ forall x, o = Some x -> Some x ∈ n_children n.
Proof.
  intros (Hp & Hk & Hc & Hn & H48) Hlt.
  assert (Hget : forall i, i < cap_of (n_kind n) -> exists o, getChild n i = Ok o /\ forall x, o = Some x -> Some x ∈ n_children n).
  { intros i Hi. rewrite <- Hc in Hi. destruct (lookup_lt_is_Some_2 _ _ Hi) as [o Ho]. exists o. unfold getChild. rewrite Ho.
    split; [by destruct (n_kind n)|]. intros x ->. by eapply elem_of_list_lookup_2. }
  unfold findChild. destruct (n_kind n) eqn:Ek.
  1,2: cbv zeta; set (idx := sort_Search _ _); assert (Hidx : idx <= n_nch n) by apply sort_Search_le; clearbody idx;
    destruct (Nat.leb_spec 1 idx); cbn [andb]; [|by exists None, 0];
    destruct (Nat.eqb _ c); [|by exists None, 0];
    destruct (Hget (idx - 1)) as (o & -> & Ho); [specialize (Hn eq_refl); lia|]; exists o, (idx - 1); done.
  - unfold getKeyAtIdx. rewrite Ek. destruct (lookup_lt_is_Some_2 (n_keys n) c) as [i Hi]; [rewrite Hk; done|]. rewrite Hi. cbn [obind].
    destruct i as [|i]; [by exists None, 0|]. cbn [Nat.eqb]. replace (S i - 1) with i by lia.
    destruct (Hget i) as (o & -> & Ho); [by eapply H48|]. exists o, i. done.
  - destruct (Hget c) as (o & -> & Ho); [done|]. cbn [obind]. destruct o as [x|]; [by exists (Some x), c|by exists None, 0].
Qed.

Section DelPre.
Context {V : Type} `{GoZero V}.
Notation art := (art V).
Notation TM := (M (st V)).
Notation nd s := (h_nodes (s_h s)).
Notation lv s := (h_leaves (s_h s)).
Notation nx s := (h_next (s_h s)).

Inductive wt (h : heap V) (F : addr -> Prop) (P : bytes -> V -> Prop) : addr -> Prop :=
| wt_node a n : F a -> h_nodes h !! a = Some n -> wfn n ->
    (forall la, n_leaf n = Some la -> F la /\ exists l, h_leaves h !! la = Some l /\ P (l_key l) (l_val l)) ->
    (forall c, Some c ∈ n_children n -> wt h F P c) -> wt h F P a.
Lemma wt_mono (h h' : heap V) (F F' : addr -> Prop) (P P' : bytes -> V -> Prop) a :
  (forall x, F x -> same_cell h h' x /\ F' x) -> (forall k v, P k v -> P' k v) -> wt h F P a -> wt h' F' P' a.
Proof.
  intros HF HP. induction 1 as [a n Ha Hn Hw Hl Hc IH]. destruct (HF _ Ha) as [[E1 E2] Ha']. apply (wt_node _ _ _ a n); [done|congruence|done| |done].
  intros la E. destruct (Hl la E) as (Hla & l & Hll & Hp). destruct (HF _ Hla) as [[_ E3] Hla']. split; [done|]. exists l. split; [congruence|]. by apply HP.
Qed.

Lemma wt_scan (h : heap V) F P key chs : (forall c, Some c ∈ chs -> wt h F P c) ->
  exists o, scanChildren h key chs = Ok o /\ forall la, o = Some la -> exists l, h_leaves h !! la = Some l /\ l_key l = key /\ P key (l_val l).
Proof.
  induction chs as [|[c|] chs IH]; intros Hc; cbn [scanChildren]; [by exists None|..].
  - destruct IH as (o & E & Ho); [intros c' Hc'; apply Hc; by right|]. destruct (Hc c ltac:(left)) as [? n Ha Hn Hw Hl _]. rewrite Hn.
    destruct (n_leaf n) as [la|] eqn:El; [|by exists o]. destruct (Hl la eq_refl) as (_ & l & Hll & Hp). rewrite Hll.
    destruct (leafMatches (l_key l) key) eqn:Em; [|by exists o]. apply leafMatches_true in Em. exists (Some la). split; [done|].
    intros ? [= <-]. exists l. split; [done|]. split; [done|]. by rewrite <- Em.
  - apply IH. intros c Hc'. apply Hc. by right.
Qed.
Lemma wt_exit (h : heap V) F P a key n : wt h F P a -> h_nodes h !! a = Some n ->
  exists r, searchExit h key a n = Ok r /\ forall la, r = Found la -> exists l, h_leaves h !! la = Some l /\ l_key l = key /\ P key (l_val l).
Proof.
  intros [a' n' Ha Hn' Hw Hl Hc] Hn. assert (n' = n) as -> by congruence. unfold searchExit, ownLeaf.
  destruct (wt_scan h F P key (n_children n) Hc) as (o & E & Ho).
  assert (Hscan : exists r, (let? o := scanChildren h key (n_children n) in match o with Some la => Ok (Found la) | None => Ok (Missing a') end) = Ok r /\
    forall la, r = Found la -> exists l, h_leaves h !! la = Some l /\ l_key l = key /\ P key (l_val l)).
  { rewrite E. cbn [obind]. destruct o as [la|]; eexists; (split; [done|]); [|done]. intros ? [= <-]. by apply Ho. }
  destruct (n_leaf n) as [la|] eqn:El; [|done]. destruct (Hl la eq_refl) as (_ & l & Hll & Hp). rewrite Hll. cbn [obind].
  destruct (leafMatches (l_key l) key) eqn:Em; [|done]. apply leafMatches_true in Em. eexists. split; [done|]. intros ? [= <-].
  exists l. split; [done|]. split; [done|]. by rewrite <- Em.
Qed.
Lemma wt_search (h : heap V) F P key : is_bytes key -> forall fuel a d, wt h F P a -> length key - d + 2 <= fuel ->
  exists r, search fuel h a key d = Ok r /\ forall la, r = Found la -> exists l, h_leaves h !! la = Some l /\ l_key l = key /\ P key (l_val l).
Proof.
  intros Hby. induction fuel as [|fuel IH]; intros a d Hw Hf; [lia|]. pose proof Hw as Hw0. destruct Hw as [a n Ha Hn Hwf Hl Hc].
  cbn [search]. rewrite Hn.
  assert (Hexit := wt_exit h F P a key n Hw0 Hn).
  assert (Hearly : (exists la l, (if isLeafN n then ownLeaf h key n else Ok None) = Ok (Some la) /\ h_leaves h !! la = Some l /\ l_key l = key /\ P key (l_val l)) \/
    (if isLeafN n then ownLeaf h key n else Ok None) = Ok None).
  { destruct (isLeafN n); [|by right]. unfold ownLeaf. destruct (n_leaf n) as [la|] eqn:El; [|by right].
    destruct (Hl la eq_refl) as (_ & l & Hll & Hp). rewrite Hll. destruct (leafMatches (l_key l) key) eqn:Em; [|by right].
    apply leafMatches_true in Em. left. exists la, l. split; [done|]. split; [done|]. split; [done|]. by rewrite <- Em. }
  destruct Hearly as [(la & l & E & H1 & H2 & H3)|E]; rewrite E; cbn [obind].
  { eexists. split; [done|]. intros ? [= <-]. eauto. }
  destruct Hwf as (Hp & Hwf'). assert (Hwf : wfn n) by done.
  assert (Hcp : exists x, (if Nat.ltb 0 (n_plen n) then checkPrefix (n_partial n) (n_plen n) key d else Ok 0) = Ok x).
  { destruct (Nat.ltb 0 (n_plen n)); [|eauto]. rewrite checkPrefix_ok by done. eauto. }
  destruct Hcp as [x ->]. cbn [obind]. destruct (_ && _); [done|]. cbv zeta.
  destruct (key !! (d + n_plen n)) as [c|] eqn:Ek; [|done].
  destruct (wfn_find n c Hwf) as (o & i & Ef & Ho).
  { apply elem_of_list_lookup_2 in Ek. unfold is_bytes in Hby. rewrite Forall_forall in Hby. by apply Hby. }
  rewrite Ef. cbn [obind]. destruct o as [ca|]; [|done]. apply lookup_lt_Some in Ek. apply IH; [by apply Hc, Ho|lia].
Qed.
Lemma wt_get (h : heap V) F P a k : is_bytes k -> wt h F P a ->
  getFrom h a k = Ok (go_zero, false) \/ exists v, getFrom h a k = Ok (v, true) /\ P (k ++ [dollar]) v.
Proof.
  intros Hk Hw. unfold getFrom, search_fuel.
  destruct (wt_search h F P (getTreeKey k)) with (fuel := length (getTreeKey k) + 2) (a := a) (d := 0) as (r & -> & Hr); [|done|lia|].
  { apply Forall_app. split; [done|]. repeat constructor. }
  cbn [obind]. destruct r as [la|]; [|by left]. destruct (Hr la eq_refl) as (l & -> & Hlk & Hp). right. eauto.
Qed.
End DelPre.
