(** Watches on the nodes of a path, in histories of calls. *)
From Verif Require Export NodeOp WatchWorld.
From Verif Require Import Observe PropWorld PropHist.
From stdpp Require Import list.
Local Open Scope nat_scope.

Section NodeWorld.
Context {V : Type} `{GoZero V} (c : chan).
Notation kmap := (gmap (list nat) V).

(** ** Calls that do not update the tree or transaction *)
Lemma step_path d (w : world V) r w' root m P : step d w = (r, w') -> (forall j x, updates d = Some j -> w_txns w !! j = Some x -> t_track x = false) ->
  same root (er_h (w_h w)) (er_h (w_h w')) -> on_path c (w_h w) root m P -> on_path c (w_h w') root m P.
Proof.
  intros E Hq Hs [HU|(t & x & q & Hr & Hnd & Ea & Hct & Hno & Hqp & HU)]; [left; by eapply step_UN|right].
  exists t, x, q. split; [|split_and!; try done; by eapply step_UN].
  apply rep_uner. apply rep_er in Hr. rewrite Ea in Hs. eapply same_rep; [exact Hs|constructor|done].
Qed.
Lemma gstep_tree d (g g' : gstate V) i u : gstep d g g' -> g_trees g !! i = Some u -> g_trees g' !! i = Some u.
Proof.
  intros Hg Hi. pose proof (lookup_lt_Some _ _ _ Hi) as Hlt.
  assert (Ha : forall v, g_trees (add_tree g v) !! i = Some u) by (intros v; cbn; by apply lookup_app_l_Some).
  assert (Ho : forall i' o, on_tree g i' o g' -> g_trees g' !! i = Some u).
  { intros i' o. unfold on_tree. destruct (g_trees g !! i') as [[m' d']|]; [intros (d1 & _ & ->); apply Ha|by intros ->]. }
  assert (Hx : forall j o, on_txn g j o g' -> g_trees g' !! i = Some u).
  { intros j o. unfold on_txn. destruct (g_txns g !! j) as [[[m' d'] f]|]; [intros (d1 & _ & _ & ->); done|by intros ->]. }
  destruct d; cbn [gstep] in Hg; try (by eapply Ho); try (by eapply Hx); try (by rewrite (proj2 Hg));
    rewrite Hg; try (apply Ha); try done; match goal with |- context [match ?x with _ => _ end] => destruct x end; try (apply Ha); done.
Qed.
Lemma gstep_txn d (g g' : gstate V) j u : gstep d g g' -> updates d <> Some j -> g_txns g !! j = Some u -> g_txns g' !! j = Some u.
Proof.
  intros Hg Hu Hj.
  assert (Ha : forall v, g_txns (add_txn g v) !! j = Some u) by (intros v; cbn; by apply lookup_app_l_Some).
  assert (Ho : forall i' o, on_tree g i' o g' -> g_txns g' !! j = Some u).
  { intros i' o. unfold on_tree. destruct (g_trees g !! i') as [[m' d']|]; [intros (d1 & _ & ->); done|by intros ->]. }
  assert (Hx : forall j' o, j' <> j -> on_txn g j' o g' -> g_txns g' !! j = Some u).
  { intros j' o Hne. unfold on_txn. destruct (g_txns g !! j') as [[[m' d'] f]|]; [intros (d1 & _ & _ & ->)|by intros ->]. cbn. by rewrite list_lookup_insert_ne. }
  destruct d; cbn [gstep updates] in Hg, Hu; try (by eapply Ho); try (eapply Hx; [|exact Hg]; congruence); try (by rewrite (proj2 Hg));
    rewrite Hg; try (apply Ha); try done; match goal with |- context [match ?x with _ => _ end] => destruct x end; try (apply Ha); done.
Qed.

(** ** A new transaction *)
Lemma cloneN_true_ch (h : heap V) a r h' : cloneN a true h = (Ok r, h') -> UNh a c h -> UNh r c h'.
Proof.
  intros E (Hlt & n & Hn & Hc). unfold cloneN, bind in E. destruct (getMutateChN_cases h a n Hn) as [(c0 & Hc0 & Eg)|(Hc0 & Eg)]; [|congruence].
  rewrite Eg in E. unfold ret, hloadN in E. rewrite Hn in E. unfold hallocN in E. injection E as <- <-. split; [cbn; lia|]. cbn. rewrite lookup_insert. eexists. split; [done|]. cbn. congruence.
Qed.
Lemma newTxn_path b (h : heap V) tr m P x h' : holds b (er_h h) (r_root tr) m -> on_path c h (r_root tr) m P -> newTxn tr h = (Ok x, h') -> on_path c h' (t_root x) m P.
Proof.
  intros Hh Hp E. unfold newTxn, bind in E. destruct (cloneN (r_root tr) true h) as [[r0| |] h1] eqn:Ec; [|done..]. unfold ret in E. injection E as <- <-. cbn [t_root].
  destruct Hp as [HU|(t & x & q & Hr & Hnd & Ea & Hct & Hno & Hqp & HU)]; [left; by eapply cloneN_true_ch|].
  destruct (decide (x = aroot t)) as [->|Hne].
  { left. eapply cloneN_true_ch; [exact Ec|]. by rewrite Ea. }
  right. destruct t as [a pre lf kids]. cbn [aroot] in *. apply noded_inv in Hno as [[-> _]|(b' & t & Hbt & Hno)]; [done|].
  exists (Art r0 pre lf kids), x, q. 
  pose proof (hsim_cloneN (r_root tr) true h) as Hsim. rewrite Ec in Hsim. cbn [fst snd omapo] in Hsim.
  unfold ecloneN, bind, hloadN, hallocN in Hsim. apply rep_er in Hr. rewrite Ea in Hsim.
  pose proof (rep_inv _ _ _ _ _ _ Hr) as (n & Hn & Hlt & He & Hpl & _). rewrite Hn in Hsim. cbn in Hsim.
  pose proof (f_equal fst Hsim) as Q1. pose proof (f_equal snd Hsim) as Q2. cbn in Q1, Q2. unfold id in Q1. injection Q1 as Q1.
  set (n' := set_partial _ _) in Q2. set (s := mkS (er_h h) (mkTx 0 0%N 0 0%N 0 false [])).
  assert (HU0 : upd none s (alN s n')) by apply upd_alN, upd_refl.
  assert (Hn' : n' = n) by (unfold n'; rewrite clonePartial_id by done; by destruct n).
  assert (Hr' : rep (er_h h1) [] (Art r0 pre lf kids)).
  { replace (er_h h1) with (s_h (alN s n')) by (rewrite <- Q2; done). rewrite Q1.
    eapply (rep_copy s (alN s n') none [] a pre lf kids n); [exact Hr|exact Hn|cbn; apply lookup_insert|cbn; lia| |exact HU0|apply not_none]. rewrite Hn'. done. }
  split_and!; try done.
  - by apply rep_uner.
  - rewrite fp_eq in Hnd |- *. apply NoDup_cons in Hnd as [Hnin Hnd]. apply NoDup_cons. split; [|done].
    intros Hin. assert (Hin' : r0 ∈ fp (Art a pre lf kids)) by (rewrite fp_eq; by right). pose proof (rep_fp _ _ _ _ Hr Hin'). cbn in *. lia.
  - by econstructor.
  - pose proof (UN_cl x c (r_root tr) true h HU) as HU1. by rewrite Ec in HU1.
Qed.

(** ** SeekPrefixWatch *)
Lemma seekWatch_path b (h : heap V) root m p it h' : holds b (er_h h) root m -> is_bytes p -> CBh h -> seekPrefixWatch (newIter root) p h = (Ok (it, c), h') ->
  c < h_nextch h' /\ on_path c h' root m p.
Proof.
  intros Hh Hp Hcb E. destruct (holds_seekWatch _ _ _ _ _ Hh Hp) as (q0 & h0 & E0 & Eh). rewrite E in E0. injection E0 as <- <-.
  unfold seekPrefixWatch, bind, lift in E. destruct (seekPrefix h (newIter root) p) as [it0| |] eqn:Es; [|done..].
  unfold seekPrefix, newIter in Es. cbn [it_node] in Es. destruct (seekLoop (length p + 2) h root p 0) as [x| |] eqn:El; cbn [obind] in Es; [|done..].
  injection Es as <-. cbn [it_node] in E. destruct (getMutateChN x h) as [[c1| |] h1] eqn:Eg; [|done..]. unfold ret in E. injection E as <- -> <-.
  split; [by eapply gm_bound|]. destruct (getMutateChN_gets _ _ _ _ Eg) as (n & Hn & Hc).
  destruct Hh as [-> (n0 & la & l & Hn0 & Hlt & He & Hpl & Hch & Hlf & Hla & Hl & Hk & Hne & Hb)|t Hr Hnd Ea Hct].
  - left. assert (x = root) as ->.
    { rewrite <- er_seekLoop in El. replace (length p + 2) with (S (length p + 1)) in El by lia. cbn [seekLoop] in El. rewrite Hn0, Hpl in El. cbn [Nat.ltb Nat.leb] in El. rewrite andb_false_r in El. cbn [obind] in El.
      destruct p as [|c0 p]; [by injection El|]. cbn [lookup list_lookup] in El. rewrite (findChild_None n0 [] c0) in El; [by injection El|done| |done]. unfold is_bytes in Hp. by apply Forall_cons in Hp as [? _]. }
    split; [|eauto]. change (h_next h1) with (h_next (er_h h1)). rewrite Eh. done.
  - right. pose proof (rep_uner _ _ _ Hr) as Hr'. rewrite Ea in El. destruct (seekLoop_path h p Hp t _ [] x Hr' Hnd (prefix_nil _) El) as (q & Hno & Hq).
    exists t, x, q. split_and!; try done; [apply rep_uner; by rewrite Eh|]. split; [|eauto].
    change (h_next h1) with (h_next (er_h h1)). rewrite Eh. eapply rep_fp; [exact Hr|by eapply noded_fp].
Qed.

(** ** Histories *)
Definition path_tree (w : world V) (g : gstate V) (i : nat) (P : bytes) : Prop :=
  exists t m d, w_trees w !! i = Some t /\ g_trees g !! i = Some (m, d) /\ c < h_nextch (w_h w) /\ on_path c (w_h w) (r_root t) m P.

(** the watch is alive on tree i until the transaction starts *)
Lemma mid_path i P v b e cs1 mid j :
  (forall g rs w, covered (cs1 ++ [e]) g -> disciplined (cs1 ++ [e]) -> small (cs1 ++ [e]) -> exec (cs1 ++ [e]) w_init = (rs, w) ->
    rs !! length cs1 = Some (Ok (RWatch c v b)) -> path_tree w g i P) ->
  forall g rs w, covered (cs1 ++ e :: mid) g -> disciplined (cs1 ++ e :: mid) -> small (cs1 ++ e :: mid) ->
  exec (cs1 ++ e :: mid) w_init = (rs, w) -> rs !! length cs1 = Some (Ok (RWatch c v b)) -> length (w_txns w) <= j ->
  fair j (cs1 ++ [e]) mid -> path_tree w g i P.
Proof.
  intros Hstart. induction mid as [|d mid IH] using rev_ind; intros g rs w Hc Hd Hs E Hr Hj Hf; [by eapply Hstart|].
  rewrite app_comm_cons, app_assoc in Hc, Hd, Hs, E.
  destruct (at_call _ _ _ _ _ Hc Hd Hs E) as (g0 & rs0 & w0 & r & Hc0 & Hg & E0 & Es & -> & Wk & Hn & K1 & K2).
  assert (Hl0 : length rs0 = length (cs1 ++ e :: mid)) by (eapply exec_length; exact E0).
  rewrite lookup_app_l in Hr by (rewrite Hl0, app_length; cbn; lia).
  assert (Htx : length (w_txns w0) <= length (w_txns w)).
  { destruct (step_txns _ _ _ _ Es) as [T1 _]. apply Nat.le_ngt. intros Hlt. destruct (lookup_lt_is_Some_2 (w_txns w0) (length (w_txns w)) Hlt) as [x Hx].
    destruct (T1 _ _ Hx) as (x' & Hx' & _). apply lookup_lt_Some in Hx'. lia. }
  destruct (IH g0 rs0 w0 Hc0) as (t & m & dd & Hi & Hgi & Hlv & Hw); [by apply disciplined_app_l in Hd|unfold small in *; rewrite app_length in Hs; cbn in Hs; lia|done|done|lia|by eapply fair_app_l|].
  destruct (K1 i t Hi) as [Hi' Hsm]. exists t, m, dd. split; [done|]. split; [by eapply gstep_tree|]. split; [by eapply step_nextch|].
  eapply step_path; [exact Es| |exact Hsm|exact Hw].
  intros j' x' Hu Hx'. destruct (t_track x') eqn:Ht; [|done]. pose proof (exec_tracks _ _ _ E0 _ _ Hx' Ht) as Htr.
  assert (Hne : j' <> j) by (intros ->; apply lookup_lt_Some in Hx'; lia).
  specialize (Hf mid d [] j' eq_refl Hu Hne). rewrite <- app_assoc in Hf. cbn in Hf. congruence.
Qed.

(** an update of the transaction itself *)
Lemma own_path n (w : world V) g g' d j P x m dd f r w' : wok n w g -> gstep d g g' -> updates d = Some j -> w_txns w !! j = Some x -> t_track x = true ->
  g_txns g !! j = Some (m, dd, f) -> c < h_nextch (w_h w) -> (N.of_nat (S n) < 2 ^ 64)%N -> on_path c (w_h w) (t_root x) m P -> step d w = (Ok r, w') ->
  exists x' m' dd', w_txns w' !! j = Some x' /\ g_txns g' !! j = Some (m', dd', false) /\
    (c ∈ t_chs x' \/ (forall k, P `prefix_of` getTreeKey k -> ~ changes d j k) /\ on_path c (w_h w') (t_root x') m' P).
Proof.
  intros [L1 L2 WT WX] Hg Hu Hj Ht Eu Hlv Hn Hw E. pose proof (lookup_lt_Some _ _ _ Hj) as Hlt. pose proof (WX _ _ _ Hj Eu) as Hx.
  assert (HO : exists o, on_txn g j o g' /\ onTxn w j x (txnOp o) (fun r => ([], r)) = (Ok r, w') /\ (forall k, op_key o <> k -> ~ changes d j k)).
  { destruct d; try done; injection Hu as ->; cbn [step] in E; unfold withTx in E; rewrite Hj in E; cbn [gstep] in Hg.
    - exists (OInsert k v). split; [done|]. split; [by rewrite onTxn_op in E|]. intros k' Hne [?|[v' ?]]; [done|]. cbn in Hne. congruence.
    - exists (ODelete k). split; [done|]. split; [by rewrite onTxn_op in E|]. intros k' Hne [?|[v' ?]]; [|done]. cbn in Hne. congruence.
    - exists (ODeletePrefix k). split; [done|]. split; [by rewrite onTxn_op in E|]. intros k' Hne [?|[v' ?]]; done. }
  destruct HO as (o & Ho & Eo & Hch). unfold on_txn in Ho. rewrite Eu in Ho. destruct Ho as (d' & Htm & Hf & ->).
  unfold onTxn in Eo. destruct (txnOp o (mkS (w_h w) x)) as [[r1| |] s'] eqn:Eop; [|done..]. injection Eo as <- <-. cbn.
  exists (s_t s'), (ref_op o m), d'. rewrite !list_lookup_insert by lia. split; [done|]. split; [done|].
  destruct (path_op c n (w_h w) x m dd f o d' P r1 s' Hx Htm Ht Hlv Hw Hf Hn Eop) as [?|[HP ?]]; [by left|right]. split; [|done].
  intros k Hk. apply Hch. intros <-. done.
Qed.

(** the watch stays with the transaction until it is recorded *)
Lemma body_path i P e cs1 mid rs1 w1 body : let j := length (w_txns w1) in
  exec (cs1 ++ e :: mid) w_init = (rs1, w1) -> (forall g, covered (cs1 ++ e :: mid) g -> path_tree w1 g i P) ->
  forall g rs w, covered ((cs1 ++ e :: mid) ++ CTxn i :: body) g -> disciplined ((cs1 ++ e :: mid) ++ CTxn i :: body) ->
  small ((cs1 ++ e :: mid) ++ CTxn i :: body) -> exec ((cs1 ++ e :: mid) ++ CTxn i :: body) w_init = (rs, w) ->
  fair j (cs1 ++ [e]) (mid ++ CTxn i :: body) -> (forall a d b, body = a ++ d :: b -> updates d = Some j -> tracks a j = true) ->
  exists x, w_txns w !! j = Some x /\ t_track x = tracks body j /\
    (c ∈ h_closed (w_h w) \/ c ∈ t_chs x \/ (forall k, P `prefix_of` getTreeKey k -> forall d, d ∈ body -> ~ changes d j k) /\ c < h_nextch (w_h w) /\
      exists m dd f, g_txns g !! j = Some (m, dd, f) /\ on_path c (w_h w) (t_root x) m P).
Proof.
  intros j E1 Hp1. induction body as [|d body IH] using rev_ind; intros g rs w Hc Hd Hs E Hf Hown.
  - destruct (at_call _ _ _ _ _ Hc Hd Hs E) as (g0 & rs0 & w0 & r & Hc0 & Hg & E0 & Es & -> & Wk & Hn & K1 & K2).
    rewrite E1 in E0. injection E0 as <- <-. destruct (Hp1 _ Hc0) as (t & m & dd & Hi & Hgi & Hlv & Hw).
    pose proof (step_nextch _ _ _ _ Es _ Hlv) as Hlv'. cbn [step] in Es. unfold withTree in Es. rewrite Hi in Es. unfold onHeap in Es.
    destruct (newTxn t (w_h w1)) as [[x| |] h'] eqn:Et; [|done..]. injection Es as _ <-. cbn in *. exists x. rewrite lookup_app_r, Nat.sub_diag by done.
    split; [done|]. split; [revert Et; unfold newTxn, bind; destruct (cloneN _ _ _) as [[r0| |] h1]; [|done..]; by intros [= <- <-]|].
    right. right. split; [intros k _ d Hdd; by apply elem_of_nil in Hdd|]. split; [done|]. destruct Wk as [L1 L2 WT WX].
    destruct (WT _ _ _ Hi Hgi) as (y & (Hh & _) & _). exists m, dd, true. split.
    + rewrite Hgi in Hg. subst g. cbn. unfold j. rewrite L2, lookup_app_r, Nat.sub_diag by done. done.
    + by eapply newTxn_path.
  - rewrite app_comm_cons, app_assoc in Hc, Hd, Hs, E.
    destruct (at_call _ _ _ _ _ Hc Hd Hs E) as (g0 & rs0 & w0 & r & Hc0 & Hg & E0 & Es & -> & Wk & Hn & K1 & K2).
    destruct (IH g0 rs0 w0 Hc0) as (x & Hx & Htr & Hcase); [by apply disciplined_app_l in Hd|unfold small in *; rewrite app_length in Hs; cbn in Hs; lia|done|..].
    { rewrite app_comm_cons, app_assoc in Hf. by eapply fair_app_l. }
    { intros a e' b -> . apply (Hown a e' (b ++ [d])). by rewrite <- app_assoc. }
    destruct (step_txns _ _ _ _ Es) as [T1 _]. destruct (T1 _ _ Hx) as (x' & Hx' & Htr' & Hchs). exists x'. split; [done|]. split; [by rewrite tracks_snoc, <- Htr|].
    destruct Hcase as [Hcl|[Hch|(Hno & Hlv & m & dd & f & Hgj & Hw)]]; [destruct (Hchs c); auto..|].
    pose proof (step_nextch _ _ _ _ Es _ Hlv) as Hlv'. destruct (decide (updates d = Some j)) as [Hu|Hu].
    + assert (Ht : t_track x = true) by (rewrite Htr; by apply (Hown body d [])).
      destruct (own_path _ _ _ _ _ _ P _ _ _ _ _ _ Wk Hg Hu Hx Ht Hgj Hlv Hn Hw Es) as (x2 & m2 & dd2 & Hx2 & Hg2 & HH). assert (x2 = x') as -> by congruence.
      destruct HH as [?|[Hnc Hw']]; [auto|]. right. right. split; [|split; [done|eauto]]. intros k Hk e' [He|He%elem_of_list_singleton]%elem_of_app; [by eapply Hno|subst; by apply Hnc].
    + right. right. destruct (K2 j Hu x Hx) as [(x2 & Hx2 & Her) Hsm]. assert (x2 = x') as -> by congruence. split; [|split; [done|]].
      * intros k Hk e' [He|He%elem_of_list_singleton]%elem_of_app; [by eapply Hno|]. subst e'. intros [->|[v' ->]]; by apply Hu.
      * assert (Er : t_root x' = t_root x) by exact (f_equal t_root Her). rewrite Er. exists m, dd, f. split; [by eapply gstep_txn|].
        eapply step_path; [exact Es| |exact Hsm|exact Hw].
        intros j' y' Hu' Hy'. destruct (t_track y') eqn:Ht; [|done]. pose proof (exec_tracks _ _ _ E0 _ _ Hy' Ht) as Htt.
        assert (Hne : j' <> j) by congruence. specialize (Hf (mid ++ CTxn i :: body) d [] j' ltac:(by rewrite <- app_assoc) Hu' Hne).
        rewrite <- !app_assoc in Hf, Htt. cbn in Hf, Htt. congruence.
Qed.

(** A channel obtained from a node on the path of P fires when a tracking transaction of that tree changes a
    key that extends P and commits. *)
Theorem path_fires i P k v b e cs1 mid rs1 w1 body g rs w :
  let before := cs1 ++ e :: mid in let j := length (w_txns w1) in let cs := before ++ CTxn i :: body ++ [CCommit j] in
  (forall g rs w, covered (cs1 ++ [e]) g -> disciplined (cs1 ++ [e]) -> small (cs1 ++ [e]) -> exec (cs1 ++ [e]) w_init = (rs, w) ->
    rs !! length cs1 = Some (Ok (RWatch c v b)) -> path_tree w g i P) ->
  covered cs g -> disciplined cs -> small cs -> exec before w_init = (rs1, w1) -> rs1 !! length cs1 = Some (Ok (RWatch c v b)) ->
  fair j (cs1 ++ [e]) (mid ++ CTxn i :: body) -> tracked_change j body k -> P `prefix_of` getTreeKey k -> exec cs w_init = (rs, w) -> c ∈ h_closed (w_h w).
Proof.
  intros before j cs Hstart Hc Hd Hs E1 Hr Hf [Hown Hcm Hhit] HP E.
  assert (Q : cs = (before ++ CTxn i :: body) ++ [CCommit j]) by (unfold cs; by rewrite <- app_assoc). rewrite Q in Hc, Hd, Hs, E.
  destruct (at_call _ _ _ _ _ Hc Hd Hs E) as (g0 & rs0 & w0 & r & Hc0 & Hg & E0 & Es & -> & Wk & Hn & K1 & K2).
  assert (Hd0 : disciplined (before ++ CTxn i :: body)) by by apply disciplined_app_l in Hd.
  assert (Hs0 : small (before ++ CTxn i :: body)) by (unfold small in *; rewrite app_length in Hs; cbn in Hs; lia).
  assert (Hp1 : forall g, covered before g -> path_tree w1 g i P).
  { intros g1 Hc1. eapply (mid_path i P v b e cs1 mid j Hstart g1 rs1 w1 Hc1); [by apply disciplined_app_l in Hd0|unfold small, before in *; rewrite app_length in Hs0; lia|done|done|done|by eapply fair_app_l]. }
  destruct (body_path i P e cs1 mid rs1 w1 body E1 Hp1 g0 rs0 w0 Hc0 Hd0 Hs0 E0 Hf Hown) as (x & Hx & Htr & Hcase). fold j in Hx, Htr, Hcase. rewrite Hcm in Htr.
  cbn [step] in Es. unfold withTx in Es. rewrite Hx in Es. unfold onTxn, commit, notify, slowNotify, bind, getT, liftH, putT, ret in Es. cbn in Es.
  rewrite Htr in Es. cbn in Es. rewrite Htr in Es. cbn in Es. destruct (closeAll_leaves (t_chs x) (w_h w0)) as [_ E2]. pose proof (closeAll_closed (t_chs x) (w_h w0)) as HC.
  destruct (closeAll (t_chs x) (w_h w0)) as [o h']. cbn in E2, HC. subst o. injection Es as _ <-. cbn. apply HC.
  destruct Hcase as [?|[?|[Hno _]]]; [auto..|]. destruct Hhit as (d & Hdb & Hch). by destruct (Hno k HP d Hdb).
Qed.

(** SeekPrefixWatch *)
Lemma seek_start i p v b cs1 : forall g rs w, covered (cs1 ++ [CSeekWatch i p]) g -> disciplined (cs1 ++ [CSeekWatch i p]) -> small (cs1 ++ [CSeekWatch i p]) ->
  exec (cs1 ++ [CSeekWatch i p]) w_init = (rs, w) -> rs !! length cs1 = Some (Ok (RWatch c v b)) -> path_tree w g i p.
Proof.
  intros g rs w Hc Hd Hs E Hr.
  destruct (at_call _ _ _ _ _ Hc Hd Hs E) as (g0 & rs0 & w0 & r & Hc0 & Hg & E0 & Es & -> & Wk & Hn & K1 & K2).
  assert (Hl : length rs0 = length cs1) by (eapply exec_length; exact E0). rewrite lookup_app_r, Hl, Nat.sub_diag in Hr by lia. cbn in Hr. injection Hr as ->.
  destruct Hg as [Hp ->]. cbn [step] in Es. unfold withTree in Es. destruct (w_trees w0 !! i) as [t|] eqn:Hi; [|done].
  destruct Wk as [L1 L2 WT WX]. destruct (lookup_lt_is_Some_2 (g_trees g0) i) as [[m dd] Eu]; [apply lookup_lt_Some in Hi; lia|]. destruct (WT _ _ _ Hi Eu) as (y & (Hh & _) & _).
  exists t, m, dd. split; [by apply K1|]. split; [done|].
  unfold onHeap in Es. destruct (seekPrefixWatch (newIter (r_root t)) p (w_h w0)) as [[[it c1]| |] h'] eqn:Eg; [|done..]. injection Es as E1 E2 E3 <-. cbn in E1. subst c1. cbn.
  eapply seekWatch_path; [exact Hh|exact Hp| |exact Eg]. eapply exec_CB; [apply CB_init|exact E0].
Qed.
Theorem seek_fires i p k v cs1 mid rs1 w1 body g rs w :
  let before := cs1 ++ CSeekWatch i p :: mid in let j := length (w_txns w1) in let cs := before ++ CTxn i :: body ++ [CCommit j] in
  covered cs g -> disciplined cs -> small cs -> exec before w_init = (rs1, w1) -> rs1 !! length cs1 = Some (Ok (RWatch c v true)) ->
  fair j (cs1 ++ [CSeekWatch i p]) (mid ++ CTxn i :: body) -> tracked_change j body k -> p `prefix_of` k -> exec cs w_init = (rs, w) -> c ∈ h_closed (w_h w).
Proof.
  intros before j cs Hc Hd Hs E1 Hr Hf Ht Hp E. eapply (path_fires i p k v true (CSeekWatch i p)); try done; [apply seek_start|].
  etransitivity; [exact Hp|]. by eexists.
Qed.
End NodeWorld.
