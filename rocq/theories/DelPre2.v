(** DeletePrefix: the recursion, on trees without left-over pointers. *)
From Verif Require Export DelPre Cov.
From stdpp Require Export list.
Local Open Scope nat_scope.

Section DelPre2.
Context {V : Type} `{GoZero V}.
Notation art := (art V).
Notation TM := (M (st V)).
Notation nd s := (h_nodes (s_h s)).
Notation lv s := (h_leaves (s_h s)).
Notation nx s := (h_next (s_h s)).

(** ** Keys that a search finds *)
Definition pathok (n : inode) (k : bytes) (d c : nat) : Prop :=
  (0 < n_plen n -> checkPrefix (n_partial n) (n_plen n) k d = Ok (maxPrefixLen `min` n_plen n)) /\ k !! (d + n_plen n) = Some c.

Inductive fnd (h : heap V) (F : addr -> Prop) (k : bytes) (v : V) : nat -> addr -> Prop :=
| fnd_own d a n la l : F a -> h_nodes h !! a = Some n -> n_leaf n = Some la -> F la -> h_leaves h !! la = Some l -> l_key l = k -> l_val l = v ->
    (isLeafN n = true \/ exists c, pathok n k d c /\ findChild n c = Ok (None, 0)) -> fnd h F k v d a
| fnd_kid d a n c ca i : F a -> h_nodes h !! a = Some n -> isLeafN n = false -> pathok n k d c -> findChild n c = Ok (Some ca, i) ->
    fnd h F k v (d + n_plen n + 1) ca -> fnd h F k v d a.
Lemma fnd_mono (h h' : heap V) (F F' : addr -> Prop) k v d a :
  (forall x, F x -> same_cell h h' x /\ F' x) -> fnd h F k v d a -> fnd h' F' k v d a.
Proof.
  intros HF. induction 1 as [d a n la l Ha Hn Hla Hfl Hl Hk Hv Hc|d a n c ca i Ha Hn Hi Hp Hf _ IH].
  - destruct (HF _ Ha) as [[E1 _] Ha']. destruct (HF _ Hfl) as [[_ E2] Hla']. eapply (fnd_own _ _ _ _ d a n la l); try done; congruence.
  - destruct (HF _ Ha) as [[E1 _] Ha']. eapply (fnd_kid _ _ _ _ d a n c ca i); try done; congruence.
Qed.
Lemma fnd_search (h : heap V) F k v : forall fuel d a, fnd h F k v d a -> length k - d + 2 <= fuel ->
  exists la l, search fuel h a k d = Ok (Found la) /\ h_leaves h !! la = Some l /\ l_val l = v.
Proof.
  induction fuel as [|fuel IH]; intros d a Hf Hfuel; [lia|].
  destruct Hf as [d a n la l Ha Hn Hla Hfl Hl Hk Hv Hc|d a n c ca i Ha Hn Hi Hp Hf Hrec]; cbn [search]; rewrite Hn.
  - exists la, l. split; [|done].
    assert (Hown : ownLeaf h k n = Ok (Some la)).
    { unfold ownLeaf. rewrite Hla, Hl. assert (leafMatches (l_key l) k = true) as -> by by apply leafMatches_true. done. }
    destruct (isLeafN n); [by rewrite Hown|]. cbn [obind]. destruct Hc as [|(c & [Hp1 Hp2] & Hfc)]; [done|].
    assert (Hex : searchExit h k a n = Ok (Found la)) by (unfold searchExit; by rewrite Hown).
    destruct (Nat.ltb_spec 0 (n_plen n)) as [Hlt|Hge]; cbn [andb].
    + rewrite (Hp1 Hlt). cbn [obind]. rewrite Nat.eqb_refl. cbn [negb]. rewrite Hp2, Hfc. done.
    + cbn [obind]. rewrite Hp2, Hfc. done.
  - rewrite Hi. cbn [obind]. destruct Hp as [Hp1 Hp2]. apply lookup_lt_Some in Hp2 as Hlt2.
    destruct (IH _ _ Hrec ltac:(lia)) as (la & l & E & Hl). exists la, l. split; [|done].
    destruct (Nat.ltb_spec 0 (n_plen n)) as [Hlt|Hge]; cbn [andb].
    + rewrite (Hp1 Hlt). cbn [obind]. rewrite Nat.eqb_refl. cbn [negb]. rewrite Hp2, Hf. done.
    + cbn [obind]. rewrite Hp2, Hf. done.
Qed.
Lemma fnd_get (h : heap V) F k v a : fnd h F (getTreeKey k) v 0 a -> getFrom h a k = Ok (v, true).
Proof.
  intros Hf. unfold getFrom, search_fuel. destruct (fnd_search h F (getTreeKey k) v (length (getTreeKey k) + 2) 0 a Hf ltac:(lia)) as (la & l & -> & Hl & <-).
  cbn [obind]. by rewrite Hl.
Qed.

(** ** What the recursion returns *)
Definition hit (key k : bytes) : bool := has_prefix (getKey k) (getKey key).
Definition pc (key : bytes) (t : art) : nat := length (List.filter (fun kv => hit key kv.1) (leaves t)).
Definition pcs (key : bytes) (ts : list art) : nat := foldr (fun t x => pc key t + x) 0 ts.
Definition surv (key : bytes) (t : art) (k : bytes) (v : V) : Prop :=
  (k, v) ∈ leaves t /\ (hit key k = true -> exists k2 v2, (k2, v2) ∈ leaves t /\ k2 <> k /\ getKey k `prefix_of` k2).
Definition plt (x y : bytes) : Prop := exists P b b', b < b' /\ (P ++ [b]) `prefix_of` x /\ (P ++ [b']) `prefix_of` y.
Definition safe (key : bytes) (t : art) (k : bytes) : Prop :=
  forall k1 v1, (k1, v1) ∈ leaves t -> hit key k1 = true ->
    plt k k1 \/ exists k2 v2 q, (k2, v2) ∈ leaves t /\ k2 <> k1 /\ q `prefix_of` k1 /\ q `prefix_of` k2 /\ ~ q `prefix_of` k.
Definition cleanT (s : st V) (t : art) : Prop := forall a n, a ∈ fp t -> nd s !! a = Some n -> stale n = [].

Definition res (key : bytes) (s : st V) (F : addr -> Prop) (t : art) (o : option addr) (s' : st V) : Prop :=
  match o with
  | None => (exists k v, leaves t = [(k, v)] /\ hit key k = true) /\ prune (hit key) t = []
  | Some a' => wt (s_h s') F (surv key t) a' /\
      (narrowL (leaves t) -> forall p k v, rep (s_h s) p t -> (k, v) ∈ leaves t -> hit key k = false -> safe key t k -> fnd (s_h s') F k v (length p) a') /\
      (narrowL (leaves t) -> exists sz, sz <= length (fp t) /\ cov (s_h s') F sz a' (prune (hit key) t))
  end.
Lemma res_mono key s s0 (F F' : addr -> Prop) t o s' s'' :
  (forall x, F x -> same_cell (s_h s') (s_h s'') x /\ F' x) -> (forall p, rep (s_h s0) p t -> rep (s_h s) p t) ->
  res key s F t o s' -> res key s0 F' t o s''.
Proof.
  intros HF Hrep. destruct o as [a'|]; cbn; [|done]. intros (Hw & Hf & Hv). split; [by eapply wt_mono; [exact HF| |exact Hw]|]. split.
  2:{ intros Hn. destruct (Hv Hn) as (sz & Hsz & Hc). exists sz. split; [done|]. by eapply cov_mono. }
  intros Hn p k v Hr Hkv Hh Hs. eapply fnd_mono; [exact HF|]. by apply Hf; auto.
Qed.
Definition FP (s : st V) (l : list addr) (s' : st V) (x : addr) : Prop := (x ∈ l \/ nx s <= x) /\ x < nx s'.

Definition post (key : bytes) (s : st V) (t : art) (r : option addr * nat) (s' : st V) : Prop :=
  r.2 = pc key t /\ upd (fun x => x ∈ fp t) s s' /\ res key s (FP s (fp t) s') t r.1 s'.

Definition dpP (key : bytes) (fuel : nat) : Prop := forall (s : st V) p t depth, rep (s_h s) p t -> NoDup (fp t) -> cleanT s t -> room t ->
  length (fp t) <= fuel -> wp (edeletePrefix fuel (Some (aroot t)) key depth) (post key s t) s.

Definition loopP (fuel : nat) (key : bytes) (depth : nat) := fix loop (chs : list (option addr)) (idx : nat) (m : list (nat * option addr)) (numDel : nat)
       : TM (list (nat * option addr) * nat) :=
       match chs with
       | [] => ret (m, numDel)
       | None :: chs' => loop chs' (idx + 1) m numDel
       | Some ch :: chs' =>
           let! '(newCh, del) := edeletePrefix fuel (Some ch) key (depth + 1) in
           loop chs' (idx + 1) (m ++ [(idx, newCh)]) (numDel + del)
       end.

Lemma same_cleanT s s' t : (forall x, x ∈ fp t -> same_cell (s_h s) (s_h s') x) -> cleanT s t -> cleanT s' t.
Proof. intros Hs Hc a n Ha Hn. destruct (Hs a Ha) as [E _]. apply (Hc a n Ha). congruence. Qed.

Fixpoint kts (slots : list (option art)) : list art :=
  match slots with [] => [] | Some t :: l => t :: kts l | None :: l => kts l end.
Definition chs_of (slots : list (option art)) : list (option addr) := List.map (option_map aroot) slots.
Lemma elem_kts t slots : t ∈ kts slots <-> Some t ∈ slots.
Proof.
  induction slots as [|[t'|] slots IH]; cbn; [by rewrite !elem_of_nil|..]; rewrite !elem_of_cons, IH; [|naive_solver].
  split; intros [E|]; auto; [left; congruence|left; congruence].
Qed.
Definition sfps (slots : list (option art)) : list addr := concat (List.map fp (kts slots)).

Lemma elem_sfps x slots : x ∈ sfps slots <-> exists t, Some t ∈ slots /\ x ∈ fp t.
Proof.
  unfold sfps. rewrite elem_of_list_In, in_concat. split.
  - intros (l & Hl & Hx). apply in_map_iff in Hl as (t & <- & Ht). exists t. rewrite <- elem_kts. split; by apply elem_of_list_In.
  - intros (t & Ht & Hx). exists (fp t). split; [|by apply elem_of_list_In]. apply in_map_iff. exists t. split; [done|]. by apply elem_of_list_In, elem_kts.
Qed.

Lemma loop_spec key fuel depth (IH : dpP key fuel) : forall (slots : list (option art)) (s : st V) idx m x,
  (forall t, Some t ∈ slots -> (exists p, rep (s_h s) p t) /\ cleanT s t /\ room t /\ length (fp t) <= fuel) -> NoDup (sfps slots) ->
  wp (loopP fuel key depth (chs_of slots) idx m x) (fun r s' => exists outs, r = (m ++ entr idx outs, x + pcs key (kts slots)) /\
    upd (fun a => a ∈ sfps slots) s s' /\ length outs = length slots /\
    (forall i, slots !! i = Some None -> outs !! i = Some None) /\
    (forall i t, slots !! i = Some (Some t) -> exists o, outs !! i = Some (Some o) /\ res key s (FP s (sfps slots) s') t o s')) s.
Proof.
  induction slots as [|[t|] slots IHs]; intros s idx m x Hsl Hnd; cbn [loopP chs_of List.map option_map].
  - apply wp_ret. exists []. cbn. rewrite app_nil_r, Nat.add_0_r. split; [done|]. split; [apply upd_refl|]. done.
  - destruct (Hsl t ltac:(left)) as ([p Hr] & Hcl & Hroom & Hfu).
    assert (Esf : sfps (Some t :: slots) = fp t ++ sfps slots) by done. rewrite Esf in Hnd. apply NoDup_app in Hnd as (Hnd1 & Hdis & Hnd2).
    eapply wp_use; [by apply (IH s p t)|]. intros [newCh del] s1 (Hdel & HU1 & Hres). cbn [fst snd] in Hdel, Hres. subst del.
    assert (Hrest : forall t', Some t' ∈ slots -> forall y, y ∈ fp t' -> y ∉ fp t /\ y < nx s).
    { intros t' Ht' y Hy. split; [intros Hy'; apply (Hdis y Hy'); apply elem_sfps; eauto|]. destruct (Hsl t' ltac:(by right)) as ([p' Hr'] & _). by eapply rep_fp. }
    assert (Hsame : forall t', Some t' ∈ slots -> forall y, y ∈ fp t' -> same_cell (s_h s) (s_h s1) y).
    { intros t' Ht' y Hy. destruct (Hrest t' Ht' y Hy). by apply (upd_same _ _ _ HU1). }
    eapply wp_mono; [apply IHs|].
    + intros t' Ht'. destruct (Hsl t' ltac:(by right)) as ([p' Hr'] & Hcl' & Hroom' & Hfu'). split_and!; [|by eapply same_cleanT; [by apply Hsame|]|done|done].
      exists p'. eapply upd_rep; [exact HU1|done|]. intros y Hy. by apply (Hrest t').
    + done.
    + intros r s2 (outs & -> & HU2 & Hlen & Hnone & Hsome). pose proof (upd_next _ _ _ HU1) as N1. pose proof (upd_next _ _ _ HU2) as N2.
      exists (Some newCh :: outs). split; [|split; [|split; [|split]]].
      * cbn [entr kts pcs foldr]. rewrite Nat.add_1_r, <- app_assoc. cbn [app]. f_equal. unfold pcs. lia.
      * eapply upd_trans; [eapply upd_weaken; [exact HU1|]|exact HU2|]; cbn beta; intros y _ Hy; rewrite Esf; apply elem_of_app; auto.
      * cbn. by rewrite Hlen.
      * intros [|i] Hi; cbn in *; [done|by apply Hnone].
      * intros [|i] t' Hi; cbn in Hi.
        -- injection Hi as <-. exists newCh. split; [done|]. eapply res_mono; [| |exact Hres]; [|done].
           intros y [Hy Hylt]. split.
           ++ apply (upd_same _ _ _ HU2); [done|]. intros (t' & Ht' & Hy')%elem_sfps. destruct (Hrest t' Ht' y Hy') as [Hn1 Hn2].
              destruct Hy; [done|lia].
           ++ split; [|lia]. rewrite Esf, elem_of_app. tauto.
        -- destruct (Hsome i t' Hi) as (o & Ho & Hres'). exists o. split; [done|]. apply elem_of_list_lookup_2 in Hi as Ht'.
           eapply res_mono; [| |exact Hres'].
           ++ intros y [Hy Hylt]. split; [done|]. split; [|done]. rewrite Esf, elem_of_app. destruct Hy; [tauto|]. right. lia.
           ++ intros p' Hr'. eapply upd_rep; [exact HU1|done|]. intros y Hy. by apply (Hrest t').
  - change (sfps (None :: slots)) with (sfps slots) in *. eapply wp_mono; [apply IHs|].
    + intros t Ht. apply Hsl. by right.
    + done.
    + intros r s' (outs & -> & HU & Hlen & Hnone & Hsome). exists (None :: outs). split; [|split; [|split; [|split]]].
      * cbn [entr]. by rewrite Nat.add_1_r.
      * done.
      * cbn. by rewrite Hlen.
      * intros [|i] Hi; cbn in *; [done|by apply Hnone].
      * intros [|i] t Hi; cbn in Hi; [done|]. cbn. by apply Hsome.
Qed.

(** ** The slots of a node *)
Lemma slots_of (chs : list (option addr)) (ts : list art) : omap id chs ≡ₚ aroot <$> ts ->
  exists slots, chs_of slots = chs /\ kts slots ≡ₚ ts.
Proof.
  intros Hp. apply Permutation_map_inv in Hp as (l3 & E & Hp). cut (exists slots, chs_of slots = chs /\ kts slots = l3).
  { intros (slots & H1 & H2). exists slots. split; [done|]. by rewrite H2, Hp. }
  clear Hp. revert l3 E. induction chs as [|[c|] chs IH]; intros l3 E; cbn in E.
  - exists []. by destruct l3.
  - destruct l3 as [|t l3]; [done|]. injection E as -> E. destruct (IH _ E) as (slots & <- & <-). by exists (Some t :: slots).
  - destruct (IH _ E) as (slots & <- & <-). by exists (None :: slots).
Qed.
Lemma pcs_perm key (ts ts' : list art) : ts ≡ₚ ts' -> pcs key ts = pcs key ts'.
Proof. induction 1; cbn; unfold pcs in *; lia. Qed.
Lemma pc_eq key a pre lf (kids : list (nat * art)) : pc key (Art a pre lf kids) =
  match lf with Some (_, k, _) => if hit key k then 1 else 0 | None => 0 end + pcs key kids.*2.
Proof.
  unfold pc. rewrite leaves_eq, List.filter_app, app_length. f_equal.
  - destruct lf as [[[la k] v]|]; [|done]. cbn. by destruct (hit key k).
  - induction kids as [|[b t] kids IH]; [done|]. rewrite kleaves_cons, List.filter_app, app_length, IH. done.
Qed.
Lemma kfp_perm (kids : list (nat * art)) slots : kts slots ≡ₚ kids.*2 -> sfps slots ≡ₚ kfp kids.
Proof.
  intros Hp. unfold sfps, kfp. assert (List.map (fun bt => fp (snd bt)) kids = List.map fp kids.*2) as -> by (clear; induction kids as [|[] ? IH]; cbn; [done|by rewrite IH]).
  generalize dependent (kids.*2). intros ts Hp. induction Hp; cbn.
  - done.
  - by rewrite IHHp.
  - by rewrite !app_assoc, (Permutation_app_comm (fp y)).
  - etrans; eauto.
Qed.
Lemma keptl_elem cs outs is_ c : Some c ∈ keptl cs outs is_ -> exists i, i ∈ is_ /\
  (outs !! i = Some (Some (Some c)) \/ ((outs !! i = None \/ outs !! i = Some None) /\ cs !! i = Some (Some c))).
Proof.
  unfold keptl. intros Hc. apply elem_of_list_In, in_concat in Hc as (l & Hl & Hx). apply in_map_iff in Hl as (i & <- & Hi).
  apply elem_of_list_In in Hx, Hi. exists i. split; [done|]. unfold kept1 in Hx. destruct (outs !! i) as [[[a|]|]|] eqn:E.
  - apply elem_of_list_singleton in Hx as [= ->]. by left.
  - by apply elem_of_nil in Hx.
  - right. split; [by right|]. destruct (cs !! i) as [y|]; apply elem_of_list_singleton in Hx; congruence.
  - right. split; [by left|]. destruct (cs !! i) as [y|]; apply elem_of_list_singleton in Hx; congruence.
Qed.
End DelPre2.
