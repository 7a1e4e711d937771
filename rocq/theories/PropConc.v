(** Proofs about interleavings (Concurrency.v) and about the memory of keys (Slices.v). *)
From Verif Require Export Concurrency Slices Witness.
From stdpp Require Import gmap list.
Local Open Scope nat_scope.
Local Open Scope list_scope.

(** ** getMutateCh *)
Definition pc_ok (cell : option chan) (next : chan) (pc : gpc) : Prop :=
  match pc with
  | GLoad | GMake => True
  | GCas c => c < next
  | GReload => is_Some cell
  | GDone c => cell = Some c
  | GCrash => False
  end.
Definition gs_ok (s : gst) : Prop := Forall (pc_ok (gs_cell s) (gs_next s)) (gs_pcs s).

Lemma pc_mono cell cell' next next' pc : (forall c, cell = Some c -> cell' = Some c) -> next <= next' -> pc_ok cell next pc -> pc_ok cell' next' pc.
Proof.
  intros Hc Hn. destruct pc; cbn; [done|done|lia| |by apply Hc|done]. intros [c ->]. exists c. by apply Hc.
Qed.
Lemma gstepi_ok i s : gs_ok s -> gs_ok (gstepi i s) /\ (forall c, gs_cell s = Some c -> gs_cell (gstepi i s) = Some c) /\ length (gs_pcs (gstepi i s)) = length (gs_pcs s).
Proof.
  intros Hs. unfold gstepi. destruct (gs_pcs s !! i) as [pc|] eqn:E; [|done].
  assert (Hp : pc_ok (gs_cell s) (gs_next s) pc). { unfold gs_ok in Hs. rewrite Forall_lookup in Hs. by eapply Hs. }
  destruct (gnext pc (gs_cell s) (gs_next s)) as [[pc' cell] next] eqn:En.
  assert (Hx : (forall c, gs_cell s = Some c -> cell = Some c) /\ gs_next s <= next /\ pc_ok cell next pc').
  { destruct pc, (gs_cell s) eqn:Ec; cbn in En; simplify_eq; cbn in *; split_and!; auto; try lia; try done; eauto. by destruct Hp. }
  destruct Hx as (H1 & H2 & H3). split; [|split; [done|cbn; by rewrite insert_length]].
  unfold gs_ok. cbn. apply Forall_insert; [|done]. eapply Forall_impl; [exact Hs|]. intros x. by apply pc_mono.
Qed.
Lemma grun_ok sched s : gs_ok s -> gs_ok (grun sched s) /\ (forall c, gs_cell s = Some c -> gs_cell (grun sched s) = Some c) /\ length (gs_pcs (grun sched s)) = length (gs_pcs s).
Proof.
  revert s. induction sched as [|i sched IH]; intros s Hs; [done|]. cbn. destruct (gstepi_ok i s Hs) as (H1 & H2 & H3).
  destruct (IH _ H1) as (H4 & H5 & H6). split; [done|]. split; [auto|etransitivity; [exact H6|exact H3]].
Qed.
Lemma gstart_ok n cell next : gs_ok (gstart n cell next).
Proof. unfold gs_ok, gstart. cbn. apply Forall_replicate. done. Qed.

(** *** C33: whatever the number of goroutines and the schedule, no getMutateCh call crashes, and all calls that have
    returned by then or return later (the schedule goes on with sched') return the same channel, the one in the node. *)
Lemma C33_proof n cell next sched sched' i j c c' :
  let s := grun sched (gstart n cell next) in let s' := grun sched' s in
  ~ (GCrash ∈ gs_pcs s) /\
  (gs_pcs s !! i = Some (GDone c) -> gs_pcs s' !! j = Some (GDone c') -> c' = c /\ gs_cell s' = Some c /\ (forall c0, cell = Some c0 -> c = c0)).
Proof.
  intros s s'. destruct (grun_ok sched _ (gstart_ok n cell next)) as (H1 & H2 & _). fold s in H1, H2.
  destruct (grun_ok sched' _ H1) as (H3 & H4 & _). fold s' in H3, H4. split.
  - intros Hc. apply elem_of_list_lookup in Hc as [x Hx]. unfold gs_ok in H1. rewrite Forall_lookup in H1. by specialize (H1 _ _ Hx).
  - intros Hi Hj. unfold gs_ok in H1, H3. rewrite Forall_lookup in H1, H3. specialize (H1 _ _ Hi). specialize (H3 _ _ Hj). cbn in H1, H3.
    pose proof (H4 _ H1) as H5. split; [congruence|]. split; [done|]. intros c0 Hc0. apply H2 in Hc0. congruence.
Qed.

(** Each goroutine returns after at most four of its own steps. *)
Definition pc_left (pc : gpc) : nat := match pc with GLoad => 4 | GMake => 3 | GCas _ => 2 | GReload => 1 | _ => 0 end.
Lemma gnext_left pc cell next : pc_left (gnext pc cell next).1.1 <= pc_left pc - 1.
Proof. destruct pc, cell; cbn; lia. Qed.
Lemma gstepi_left i j s pc : gs_pcs s !! j = Some pc -> exists pc', gs_pcs (gstepi i s) !! j = Some pc' /\ pc_left pc' <= pc_left pc - (if bool_decide (i = j) then 1 else 0).
Proof.
  intros Hj. unfold gstepi. destruct (gs_pcs s !! i) as [p|] eqn:E.
  - pose proof (gnext_left p (gs_cell s) (gs_next s)) as Hl. destruct (gnext p _ _) as [[p' cell] next]. cbn in *.
    destruct (decide (i = j)) as [->|Hn].
    + rewrite bool_decide_eq_true_2 by done. rewrite list_lookup_insert by (by eapply lookup_lt_Some). rewrite Hj in E. injection E as ->. eauto.
    + rewrite bool_decide_eq_false_2 by done. rewrite list_lookup_insert_ne by done. exists pc. split; [done|lia].
  - rewrite bool_decide_eq_false_2 by congruence. exists pc. split; [done|lia].
Qed.
Definition turns (i : nat) (sched : list nat) : nat := length (filter (fun x => x = i) sched).
Lemma turns_cons i j sched : turns j (i :: sched) = (if bool_decide (i = j) then 1 else 0) + turns j sched.
Proof. unfold turns. rewrite filter_cons. destruct (decide (i = j)); [by rewrite bool_decide_eq_true_2|by rewrite bool_decide_eq_false_2]. Qed.
Lemma grun_left sched j s pc : gs_pcs s !! j = Some pc -> exists pc', gs_pcs (grun sched s) !! j = Some pc' /\ pc_left pc' <= pc_left pc - turns j sched.
Proof.
  revert s pc. induction sched as [|i sched IH]; intros s pc Hj; [exists pc; unfold turns; cbn; split; [done|lia]|].
  destruct (gstepi_left i j s pc Hj) as (pc1 & H1 & H2). destruct (IH _ _ H1) as (pc2 & H3 & H4). exists pc2. split; [done|].
  rewrite turns_cons. destruct (bool_decide (i = j)); lia.
Qed.
(** *** C33 (progress): a goroutine that has had four turns has returned, so getMutateCh never waits for another goroutine. *)
Lemma C33_returns_proof n cell next sched i : i < n -> 4 <= turns i sched ->
  exists c, gs_pcs (grun sched (gstart n cell next)) !! i = Some (GDone c).
Proof.
  intros Hi Ht. destruct (grun_left sched i (gstart n cell next) GLoad) as (pc & H1 & H2). { cbn. by apply lookup_replicate. }
  cbn in H2. assert (pc_left pc = 0) by lia. destruct (grun_ok sched _ (gstart_ok n cell next)) as (H3 & _). unfold gs_ok in H3. rewrite Forall_lookup in H3.
  specialize (H3 _ _ H1). destruct pc; cbn in *; try lia; eauto.
Qed.
(** three goroutines race on a node without a channel; two of them create one *)
Example ex_C33 : let s := grun [0;1;0;1;2;1;0;0;2] (gstart 3 None 7) in gs_cell s = Some 8 /\ gs_pcs s = [GDone 8; GDone 8; GCas 9].
Proof. split; reflexivity. Qed.

(** A goroutine that runs alone does what the sequential model does. *)
Lemma getMutateCh_alone {V} (h : heap V) a n : h_nodes h !! a = Some n ->
  let s := grun [0;0;0;0] (gstart 1 (n_ch n) (h_nextch h)) in
  exists c h', getMutateChN a h = (Ok c, h') /\ gs_pcs s = [GDone c] /\ (n_ch <$> h_nodes h' !! a) = Some (gs_cell s) /\ h_nextch h' = gs_next s.
Proof.
  intros Hn s. unfold getMutateChN, bind, hloadN. rewrite Hn. unfold s. destruct (n_ch n) as [c|] eqn:E; cbn.
  - exists c, h. rewrite Hn. cbn. by rewrite E.
  - do 2 eexists. split; [reflexivity|]. cbn. rewrite lookup_insert. done.
Qed.

(** ** Notify *)
Definition pc_chans (pc : npc) : list chan := match pc with NCheck cs => cs | NClose c cs => c :: cs | NPanic => [] end.
Definition apart (pcs : list npc) : Prop := forall i j p q, i <> j -> pcs !! i = Some p -> pcs !! j = Some q -> forall c, c ∈ pc_chans p -> c ∉ pc_chans q.
Definition npc_ok (closed : list chan) (pc : npc) : Prop := match pc with NCheck _ => True | NClose c _ => c ∉ closed | NPanic => False end.
Definition ns_ok (s : nst) : Prop := apart (ns_pcs s) /\ Forall (npc_ok (ns_closed s)) (ns_pcs s).
Lemma nstepi_ok i s : ns_ok s -> ns_ok (nstepi i s).
Proof.
  intros [Ha Hf]. unfold nstepi. destruct (ns_pcs s !! i) as [pc|] eqn:E; [|done]. destruct (nnext pc (ns_closed s)) as [pc' closed] eqn:En.
  rewrite Forall_lookup in Hf. pose proof (Hf _ _ E) as Hp.
  assert (Hx : npc_ok closed pc' /\ (forall c, c ∈ pc_chans pc' -> c ∈ pc_chans pc) /\ (forall c, c ∈ closed -> c ∈ ns_closed s \/ c ∈ pc_chans pc)).
  { destruct pc as [[|c cs]|c cs|]; cbn in En; [..|done]; [by simplify_eq; cbn; auto| |]; case_bool_decide; simplify_eq; cbn in *; split_and!; auto; try done; intros x; rewrite ?elem_of_cons; tauto. }
  destruct Hx as (H1 & H2 & H3). split; cbn.
  - intros x y p q Hn Hpx Hqy c Hc. apply list_lookup_insert_Some in Hpx. apply list_lookup_insert_Some in Hqy.
    destruct Hpx as [(-> & <- & _)|[Hx Hpx]]; destruct Hqy as [(-> & <- & _)|[Hy Hqy]]; [done|by eapply (Ha x y); eauto|intros Hc'; eapply (Ha y x); eauto|by eapply (Ha x y)].
  - apply Forall_lookup. intros x p Hpx. apply list_lookup_insert_Some in Hpx as [(-> & <- & _)|[Hx Hpx]]; [done|].
    specialize (Hf _ _ Hpx). destruct p as [|c cs|]; cbn in *; [done| |done]. intros Hc. destruct (H3 _ Hc) as [?|Hc']; [done|].
    eapply (Ha x i); eauto. cbn. left.
Qed.
Lemma nrun_ok sched s : ns_ok s -> ns_ok (nrun sched s).
Proof. revert s. induction sched as [|i sched IH]; intros s Hs; [done|]. cbn. by apply IH, nstepi_ok. Qed.

(** every channel of the lists is closed or still to be looked at *)
Definition pending (s : nst) (cs : list chan) : Prop := forall c, c ∈ cs -> c ∈ ns_closed s \/ exists pc, pc ∈ ns_pcs s /\ c ∈ pc_chans pc.
Lemma nstepi_pending i s cs : ns_ok s -> pending s cs -> pending (nstepi i s) cs.
Proof.
  intros [_ Hf] Hc c Hi. unfold nstepi. destruct (ns_pcs s !! i) as [pc|] eqn:E; [|by apply Hc]. rewrite Forall_lookup in Hf. pose proof (Hf _ _ E) as Hp.
  destruct (nnext pc (ns_closed s)) as [pc' closed] eqn:En. cbn.
  assert (Hx : (forall c, c ∈ ns_closed s -> c ∈ closed) /\ (forall c, c ∈ pc_chans pc -> c ∈ closed \/ c ∈ pc_chans pc')).
  { destruct pc as [[|x xs]|x xs|]; cbn in En; [..|done]; [simplify_eq; cbn; auto| |]; case_bool_decide; simplify_eq; cbn in *; split; auto; try done; intros y; rewrite ?elem_of_cons; try tauto.
    intros [->|?]; [by left|by right]. }
  destruct Hx as [H1 H2]. destruct (Hc _ Hi) as [?|(p & Hp' & Hcp)]; [left; auto|]. apply elem_of_list_lookup in Hp' as [x Hx].
  destruct (decide (x = i)) as [->|Hn].
  - rewrite E in Hx. injection Hx as ->. destruct (H2 _ Hcp) as [?|?]; [by left|]. right. exists pc'. split; [|done]. eapply elem_of_list_lookup_2. apply list_lookup_insert. by eapply lookup_lt_Some.
  - right. exists p. split; [|done]. eapply elem_of_list_lookup_2. by rewrite list_lookup_insert_ne.
Qed.
Lemma nrun_pending sched s cs : ns_ok s -> pending s cs -> pending (nrun sched s) cs.
Proof. revert s. induction sched as [|i sched IH]; intros s Hs Hp; [done|]. cbn. apply IH; [by apply nstepi_ok|by apply nstepi_pending]. Qed.

(** *** C32 when no two of the transactions have tracked the same channel: no schedule of the Notify calls panics, and once all have
    returned every tracked channel is closed. *)
Lemma C32_partial_proof closed css sched : (forall i j cs cs', i <> j -> css !! i = Some cs -> css !! j = Some cs' -> forall c, c ∈ cs -> c ∉ cs') ->
  let s := nrun sched (nstart closed css) in
  NPanic ∉ ns_pcs s /\ (Forall (fun pc => pc = NCheck []) (ns_pcs s) -> forall cs c, cs ∈ css -> c ∈ cs -> c ∈ ns_closed s).
Proof.
  intros Hd s. assert (H0 : ns_ok (nstart closed css)).
  { split; cbn; [|apply Forall_fmap, Forall_forall; done]. intros i j p q Hn Hi Hj. apply list_lookup_fmap_Some in Hi as (cs & Hi & ->). apply list_lookup_fmap_Some in Hj as (cs' & Hj & ->). cbn. by eapply Hd. }
  pose proof (nrun_ok sched _ H0) as [Hs1 Hs2]. fold s in Hs1, Hs2. split.
  - intros Hp. rewrite Forall_forall in Hs2. by specialize (Hs2 _ Hp).
  - intros Hall cs c Hcs Hc. assert (Hp : pending s cs).
    { apply nrun_pending; [done|]. intros c' Hc'. right. exists (NCheck cs). split; [|done]. cbn. apply elem_of_list_fmap. eauto. }
    destruct (Hp _ Hc) as [?|(pc & Hpc & Hin)]; [done|]. rewrite Forall_forall in Hall. rewrite (Hall _ Hpc) in Hin. by apply elem_of_nil in Hin.
Qed.
Example ex_C32 : let s := nrun [0;1;1;0;0;0;1;1] (nstart [5] [[5;6;6];[7;8]]) in ns_closed s = [8;6;7;5] /\ ns_pcs s = [NCheck []; NCheck []].
Proof. split; reflexivity. Qed.

(** A Notify call that runs alone does what the sequential model does. *)
Lemma notify_alone {V} (cs : list chan) : forall (h : heap V), exists sched h', closeAll cs h = (Ok tt, h') /\
  nrun sched (nstart (h_closed h) [cs]) = mkNS (h_closed h') [NCheck []].
Proof.
  induction cs as [|c cs IH]; intros h; [by exists [], h|]. cbn [closeAll]. unfold bind at 1, hcloseIfOpen. destruct (bool_decide (c ∈ h_closed h)) eqn:E.
  - destruct (IH h) as (sched & h' & E1 & E2). exists (0 :: sched), h'. split; [done|]. cbn. unfold nstepi. cbn. rewrite E. exact E2.
  - destruct (IH (set_closed h (c :: h_closed h))) as (sched & h' & E1 & E2). exists (0 :: 0 :: sched), h'. split; [done|]. cbn. unfold nstepi. cbn. rewrite E. cbn. rewrite E. exact E2.
Qed.

Global Instance npc_eq_dec : EqDecision npc.
Proof. solve_decision. Defined.
(** *** C32: two transactions of one tree share the channel of the root (txn.go:42-43 clones it with its channel), both track it,
    and two concurrent Commits can both find it open: the second close panics. *)
Lemma C32_refuted_proof : exists (cs : list (call nat)) x y sched,
  w_txns (wrun cs) = [x; y] /\ t_track x = true /\ t_track y = true /\
  NPanic ∈ ns_pcs (nrun sched (nstart (h_closed (w_h (wrun cs))) [t_chs x; t_chs y])).
Proof.
  exists [CNew; CInsert 0 (B "a") 1; CTxn 1; CTxn 1; CTrack 0 true; CTrack 1 true; CTInsert 0 (B "b") 2; CTInsert 1 (B "c") 3].
  do 2 eexists. exists [0;1;0;1]. split; [vm_compute; reflexivity|]. split; [reflexivity|]. split; [reflexivity|].
  refine (bool_decide_unpack _ _). vm_compute. exact Logic.I.
Qed.

(** ** Slices *)
Lemma slice_bytes_poke_ne (M : memory) s a i b : sl_arr s <> a -> slice_bytes (poke M a i b) s = slice_bytes M s.
Proof. intros Hn. unfold slice_bytes, poke. destruct (M !! a); [|done]. by rewrite lookup_insert_ne. Qed.
Lemma append1_bytes (M : memory) s b fresh extra : slice_ok M s -> M !! fresh = None ->
  slice_bytes (append1 M s b fresh extra).1 (append1 M s b fresh extra).2 = slice_bytes M s ++ [b].
Proof.
  intros [Hl (xs & Hx & Hc)] Hf. unfold append1. destruct (Nat.ltb_spec (sl_len s) (sl_cap s)) as [Hlt|Hge]; unfold slice_bytes; cbn.
  - unfold poke. rewrite Hx, lookup_insert. rewrite drop_insert_le by lia. replace (sl_off s + sl_len s - sl_off s) with (sl_len s) by lia.
    assert (Hd : sl_len s < length (drop (sl_off s) xs)) by (rewrite drop_length; lia).
    rewrite (take_S_r _ _ b); [|by rewrite list_lookup_insert]. by rewrite take_insert.
  - rewrite lookup_insert, Hx, drop_0. assert (Ht : length (take (sl_len s) (drop (sl_off s) xs)) = sl_len s) by (rewrite take_length, drop_length; lia).
    replace (S (sl_len s)) with (length (take (sl_len s) (drop (sl_off s) xs) ++ [b])) by (rewrite app_length, Ht; cbn; lia). rewrite (cons_middle b _ (replicate extra 0)), app_assoc. by rewrite take_app.
Qed.
(** *** C34 for keys without spare capacity: Insert (likewise Get, Delete and the seeks, which only make the tree key) changes no byte of any
    array that existed, and the key held by the leaf stays the inserted key whatever is written later to any other array. *)
Lemma C34_partial_proof (M : memory) key fresh extra : slice_ok M key -> M !! fresh = None -> sl_cap key = sl_len key ->
  let '(M', leaf) := goInsertKey M key fresh extra in
  (forall a, a <> fresh -> M' !! a = M !! a) /\ slice_bytes M' leaf = slice_bytes M key ++ [dollar] /\
  forall writes : list (nat * nat * byte), Forall (fun w => w.1.1 <> fresh) writes ->
    goLeafKey (foldl (fun M w => poke M w.1.1 w.1.2 w.2) M' writes) leaf = slice_bytes M key.
Proof.
  intros Hok Hf Hc. pose proof (append1_bytes M key dollar fresh extra Hok Hf) as Hb. unfold goInsertKey, goTreeKey.
  assert (Ea : append1 M key dollar fresh extra = (<[fresh := slice_bytes M key ++ [dollar] ++ replicate extra 0]> M, mkSl fresh 0 (S (sl_len key)) (S (sl_len key) + extra))).
  { unfold append1. destruct (Nat.ltb_spec (sl_len key) (sl_cap key)); [lia|done]. }
  rewrite Ea in *. cbn [fst snd] in Hb. split; [|split; [done|]].
  - intros a Ha. by rewrite lookup_insert_ne.
  - intros writes Hw.
    assert (Hk : forall M', slice_bytes (foldl (fun M w => poke M w.1.1 w.1.2 w.2) M' writes) (mkSl fresh 0 (sl_len key) (S (sl_len key) + extra)) = slice_bytes M' (mkSl fresh 0 (sl_len key) (S (sl_len key) + extra))).
    { clear -Hw. induction Hw as [|w writes Hw _ IH]; intros M'; [done|]. cbn [foldl]. rewrite IH. apply slice_bytes_poke_ne. cbn. congruence. }
    unfold goLeafKey. cbn [goKey sl_len sl_arr sl_off sl_cap]. rewrite Hk. destruct Hok as [Hl (xs & Hx & Hcap)].
    unfold slice_bytes. cbn. rewrite lookup_insert, Hx, drop_0. rewrite take_app_le by (rewrite take_length, drop_length; lia). by rewrite take_take, Nat.min_id.
Qed.
(** *** C34 in general: at most one byte of the caller's memory is written, the one behind the key, and it becomes '$'. *)
Lemma C34_one_byte_proof (M : memory) key fresh extra a i : slice_ok M key -> M !! fresh = None -> a <> fresh ->
  (a <> sl_arr key \/ i <> sl_off key + sl_len key) -> (M !! a ≫= (fun xs => xs !! i)) = ((goInsertKey M key fresh extra).1 !! a ≫= (fun xs => xs !! i)).
Proof.
  intros [Hl (xs & Hx & Hcap)] Hf Ha Hi. unfold goInsertKey, goTreeKey, append1. destruct (Nat.ltb_spec (sl_len key) (sl_cap key)) as [Hlt|Hge]; cbn; [|by rewrite lookup_insert_ne].
  unfold poke. rewrite Hx. destruct (decide (a = sl_arr key)) as [->|Hn]; [|by rewrite lookup_insert_ne]. rewrite lookup_insert, Hx. cbn. destruct Hi as [?|Hi]; [done|]. by rewrite list_lookup_insert_ne.
Qed.
(** *** C34: Insert with the key buf[:1] of buf = "abc" overwrites buf[1] with '$'. *)
Lemma C34_write_refuted_proof : exists (M : memory) key fresh extra, slice_ok M key /\ M !! fresh = None /\ slice_bytes M key = B "a" /\
  M !! 0 = Some (B "abc") /\ (goInsertKey M key fresh extra).1 !! 0 = Some (B "a$c").
Proof.
  exists {[0 := B "abc"]}, (mkSl 0 0 1 3), 1, 0. split; [split; cbn; [lia|]; exists (B "abc"); cbn; split; [done|lia]|]. split; [done|]. split; [done|]. split; done.
Qed.
(** *** C34: and the leaf keeps the caller's array: writing "z" to buf[0] later renames the stored key "a" to "z". *)
Lemma C34_alias_refuted_proof : exists (M : memory) key fresh extra a i b, slice_ok M key /\ M !! fresh = None /\ is_Some (M !! a) /\
  let '(M', leaf) := goInsertKey M key fresh extra in goLeafKey M' leaf = B "a" /\ goLeafKey (poke M' a i b) leaf = B "z".
Proof.
  exists {[0 := B "abc"]}, (mkSl 0 0 1 3), 1, 0, 0, 0, 122. split; [split; cbn; [lia|]; exists (B "abc"); cbn; split; [done|lia]|]. split; [done|]. split; [by eexists|]. split; done.
Qed.
(** a key without spare capacity, next to other memory of the caller *)
Example ex_C34 : let M : memory := {[0 := B "abc"; 3 := B "k"]} in let key := mkSl 0 1 2 2 in
  slice_ok M key /\ slice_bytes M key = B "bc" /\ goInsertKey M key 7 1 = ({[0 := B "abc"; 3 := B "k"; 7 := [98; 99; 36; 0]]}, mkSl 7 0 3 4).
Proof.
  cbv zeta. split; [split; cbn; [lia|]; exists (B "abc"); cbn; split; [done|lia]|]. split; [done|].
  unfold goInsertKey, goTreeKey, append1. cbn. f_equal. refine (bool_decide_unpack _ _). vm_compute. exact Logic.I.
Qed.
