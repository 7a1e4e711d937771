(** Refinement of arbitrary client histories: every tree and every transaction holds its reference map. *)
From Verif Require Import ReadTop Observe PropMap PropWorld.
From Verif Require Export SpecWorld.
From stdpp Require Import list.
Local Open Scope nat_scope.

Section WorldRef.
Context {V : Type} `{GoZero V}.
Notation kmap := (gmap (list nat) V).
Notation HM := (M (heap V)).
Notation TM := (M (st V)).
Notation holds := Top.holds.

(** ** What is reachable stays represented *)
Lemma same_leafrep (h h' : heap V) a y n lf : same a h h' -> reach h a y -> h_nodes h !! y = Some n -> leafrep h (n_leaf n) lf -> leafrep h' (n_leaf n) lf.
Proof.
  intros A Hy Hn. destruct lf as [[[la k] v]|]; [|done]. intros (E & Hlt & l & Hl & Hk & Hv).
  pose proof (ag_next _ _ _ A). split; [done|]. split; [lia|]. exists l. split; [|done].
  rewrite (ag_lv _ _ _ A la); [done|]. eapply reach_step; [exact Hy|exact Hn|by right].
Qed.
Lemma stale_child (n : inode) c : c ∈ stale n -> Some c ∈ n_children n.
Proof.
  unfold stale. destruct (sortedkind _); [|intros Hx; by apply elem_of_nil in Hx]. intros Hc. apply elem_of_list_omap in Hc as ([x|] & Hx & E); [|done].
  cbn in E. injection E as ->. apply elem_of_list_lookup in Hx as [i Hi]. rewrite lookup_drop in Hi. by eapply elem_of_list_lookup_2.
Qed.
Lemma same_leafok (h h' : heap V) a c P : same a h h' -> reach h a c -> leafok h c P -> leafok h' c P.
Proof.
  intros A Hy (Hlt & n & Hn & Hl). pose proof (ag_next _ _ _ A). split; [lia|]. exists n. split; [by rewrite (ag_nd _ _ _ A c Hy)|].
  destruct (n_leaf n) as [la|] eqn:El; [|done]. destruct Hl as (Hlt' & l & Hl & HP). split; [lia|]. exists l. split; [|done].
  rewrite (ag_lv _ _ _ A la); [done|]. eapply reach_step; [exact Hy|exact Hn|by right].
Qed.
Lemma same_rep (h h' : heap V) a : same a h h' -> forall t p, reach h a (aroot t) -> rep h p t -> rep h' p t.
Proof.
  intros A t. induction t as [b pre lf kids IH] using art_ind'. intros p Hre Hr. cbn [aroot] in Hre.
  pose proof (fun n => rep_low _ _ _ _ _ _ n Hr) as Hlow. apply rep_inv in Hr as (n & Hn & Hlt & He & Hpl & Hlf & Hk1 & Hk2 & Hk3 & Hst & Hkids). pose proof (ag_next _ _ _ A).
  apply (rep_node _ _ _ _ _ _ n); [by rewrite (ag_nd _ _ _ A b Hre)|lia|done|done|by eapply same_leafrep|done|done|done| | |by apply Hlow].
  - intros c Hc. destruct (Hst c Hc) as (b' & Hb & Hok). exists b'. split; [done|]. eapply same_leafok; [exact A| |exact Hok].
    eapply reach_step; [exact Hre|exact Hn|]. left. by apply stale_child.
  - intros b' t' Hin. apply (IH b' t' Hin); [|by apply Hkids]. eapply reach_step; [exact Hre|exact Hn|]. left.
    eapply enc_elem_children; [exact He|]. apply elem_of_list_fmap. by exists (b', t').
Qed.
Lemma same_holds b (h h' : heap V) a m : same a h h' -> holds b h a m -> holds b h' a m.
Proof.
  intros A [-> (n & la & l & Hn & Hlt & He & Hpl & Hch & Hlf & Hla & Hl & Hk & Hne & Hb & Hk4)|t Hr Hnd -> Hc].
  - apply Top.holds_empty; [done|]. pose proof (ag_next _ _ _ A). exists n, la, l.
    rewrite (ag_nd _ _ _ A a (reach_refl _ _)), (ag_lv _ _ _ A la); [split_and!; (done || lia)|].
    eapply reach_step; [apply reach_refl|exact Hn|by right].
  - eapply Top.holds_tree; [|exact Hnd|done|exact Hc]. eapply same_rep; [exact A|constructor|done].
Qed.

(** ** The relation between worlds and reference states *)
Definition tok (n : nat) (h : heap V) (t : rtree) (g : kmap * nat) : Prop :=
  exists x, tree_ok h t g.1 x /\ x <= g.2 /\ size g.1 + x <= n.
Definition xok (n : nat) (h : heap V) (x : txn) (g : kmap * nat * bool) : Prop :=
  exists y, tstate g.2 (mkS h (er_t x)) g.1.1 y /\ y <= g.1.2 /\ size g.1.1 + y <= n.
Record wok (n : nat) (w : world V) (g : gstate V) : Prop := mk_wok {
  wok_lt : length (w_trees w) = length (g_trees g);
  wok_lx : length (w_txns w) = length (g_txns g);
  wok_t : forall i t u, w_trees w !! i = Some t -> g_trees g !! i = Some u -> tok n (er_h (w_h w)) t u;
  wok_x : forall j x u, w_txns w !! j = Some x -> g_txns g !! j = Some u -> xok n (er_h (w_h w)) x u }.

Lemma same_tok n n' (h h' : heap V) t u : same (r_root t) h h' -> n <= n' -> tok n h t u -> tok n' h' t u.
Proof. intros A Hn (x & (Hh & Hs & He) & H1 & H2). exists x. split; [|split; [done|lia]]. split; [|done]. by eapply same_holds. Qed.
Lemma same_xok n n' (h h' : heap V) x x' u : same (t_root x) h h' -> er_t x' = er_t x -> n <= n' -> xok n h x u -> xok n' h' x' u.
Proof.
  intros A Ex Hn (y & (Hh & Hs & He & Hm) & H1 & H2). exists y. split; [|split; [done|lia]]. rewrite Ex.
  split; [|done]. eapply same_holds; [|exact Hh]. done.
Qed.
Lemma wok_keep n w w' g : wok n w g -> keeps_tree w w' -> (forall j, keeps_txn w w' j) ->
  w_trees w' = w_trees w -> length (w_txns w') = length (w_txns w) -> wok (S n) w' g.
Proof.
  intros [L1 L2 T X] K1 K2 E1 E2. split; [congruence|congruence|..].
  - intros i t u Hi Hu. rewrite E1 in Hi. destruct (K1 i t Hi) as [_ A]. eapply same_tok; [exact A| |by eapply T]. lia.
  - intros j x u Hj Hu. destruct (w_txns w !! j) as [x0|] eqn:Ej; [|apply lookup_ge_None in Ej; apply lookup_lt_Some in Hj; lia].
    destruct (K2 j x0 Ej) as [(x1 & Hx1 & Ee) A]. assert (x1 = x) as -> by congruence. eapply same_xok; [exact A|exact Ee| |by eapply X]. lia.
Qed.
Lemma wok_addtree n w w' g t u : wok n w g -> keeps_tree w w' -> (forall j, keeps_txn w w' j) ->
  w_trees w' = w_trees w ++ [t] -> length (w_txns w') = length (w_txns w) -> tok (S n) (er_h (w_h w')) t u -> wok (S n) w' (add_tree g u).
Proof.
  intros W K1 K2 E1 E2 Ht. pose proof W as [L1 L2 T X].
  assert (W2 : wok (S n) (mkW (w_h w') (w_trees w) (w_txns w')) g).
  { eapply wok_keep; [exact W| |exact K2|done|done]. intros i t' Hi. destruct (K1 i t' Hi) as [_ A]. done. }
  destruct W2 as [L1' L2' T' X']. split; cbn in *; [rewrite E1, !app_length; cbn; lia|done| |done].
  intros i t' u' Hi Hu. rewrite E1 in Hi. apply lookup_snoc_inv in Hi as [Hi|[-> ->]]; apply lookup_snoc_inv in Hu as [Hu|[Hl ->]].
  - by eapply T'.
  - apply lookup_lt_Some in Hi. lia.
  - apply lookup_lt_Some in Hu. lia.
  - done.
Qed.
Lemma wok_addtxn n w w' g x u : wok n w g -> keeps_tree w w' -> (forall j, keeps_txn w w' j) ->
  w_trees w' = w_trees w -> w_txns w' = w_txns w ++ [x] -> xok (S n) (er_h (w_h w')) x u -> wok (S n) w' (add_txn g u).
Proof.
  intros [L1 L2 T X] K1 K2 E1 E2 Ht. split; cbn; [congruence|rewrite E2, !app_length; cbn; lia|..].
  - intros i t u' Hi Hu. rewrite E1 in Hi. destruct (K1 i t Hi) as [_ A]. eapply same_tok; [exact A| |by eapply T]. lia.
  - intros j x' u' Hj Hu. rewrite E2 in Hj. apply lookup_snoc_inv in Hj as [Hj|[-> ->]]; apply lookup_snoc_inv in Hu as [Hu|[Hl ->]].
    + destruct (K2 j x' Hj) as [_ A]. eapply same_xok; [exact A|done| |by eapply X]. lia.
    + apply lookup_lt_Some in Hj. lia.
    + apply lookup_lt_Some in Hu. lia.
    + done.
Qed.
Lemma wok_update n w w' g j x u : wok n w g -> keeps_tree w w' -> (forall k, k <> j -> keeps_txn w w' k) ->
  w_trees w' = w_trees w -> w_txns w' = <[j := x]> (w_txns w) -> xok (S n) (er_h (w_h w')) x u ->
  wok (S n) w' (mkG (g_trees g) (<[j := u]> (g_txns g))).
Proof.
  intros [L1 L2 T X] K1 K2 E1 E2 Ht. split; cbn; [congruence|rewrite E2, !insert_length; lia|..].
  - intros i t u' Hi Hu. rewrite E1 in Hi. destruct (K1 i t Hi) as [_ A]. eapply same_tok; [exact A| |by eapply T]. lia.
  - intros k x' u' Hj Hu. rewrite E2 in Hj. destruct (decide (k = j)) as [->|Hne].
    + apply list_lookup_insert_Some in Hj as [(_ & <- & _)|[? _]]; [|done]. by apply list_lookup_insert_Some in Hu as [(_ & <- & _)|[? _]].
    + rewrite list_lookup_insert_ne in Hj by done. rewrite list_lookup_insert_ne in Hu by done. destruct (K2 k Hne x' Hj) as [_ A]. eapply same_xok; [exact A|done| |by eapply X]. lia.
Qed.

(** ** The programs *)
Lemma sim_wp {A} (m m0 : TM A) s Q : sim id m m0 -> wp m0 Q (er s) -> wp m (fun a s' => Q a (er s')) s.
Proof.
  intros Hs Hw. specialize (Hs s). unfold wp in *. rewrite <- Hs in Hw. destruct (m s) as [[a| |] h']; cbn in *; try done.
Qed.
Lemma holds_clone b (h : heap V) a m : holds b h a m -> exists r h', ecloneN a h = (Ok r, h') /\ holds true h' r m.
Proof.
  intros Hh. destruct (enewTxn_spec b h (mkT a 0%N 0) m Hh) as (r & h' & E & Hh'). unfold enewTxn, bind in E. cbn [r_root] in E.
  destruct (ecloneN a h) as [[r'| |] h1] eqn:Ec; [|done..]. unfold ret in E. injection E as -> ->. eauto.
Qed.
Lemma search_missing fuel : forall (h : heap V) a key d b, search fuel h a key d = Ok (Missing b) -> is_Some (h_nodes h !! b).
Proof.
  assert (Hex : forall (h : heap V) key a n b, h_nodes h !! a = Some n -> searchExit h key a n = Ok (Missing b) -> is_Some (h_nodes h !! b)).
  { intros h key a n b Hn. unfold searchExit. destruct (ownLeaf h key n) as [[la|]| |]; cbn [obind]; [done| |done..].
    destruct (scanChildren _ _ _) as [[la|]| |]; cbn [obind]; [done| |done..]. intros [= <-]. eauto. }
  induction fuel as [|fuel IH]; intros h a key d b; cbn [search]; [done|]. destruct (h_nodes h !! a) as [n|] eqn:Hn; [|done].
  intros E. repeat match goal with
  | E : obind ?o _ = _ |- _ => let Eo := fresh in destruct o eqn:Eo; cbn [obind] in E
  | E : context [match ?x with _ => _ end] |- _ => let Ex := fresh in destruct x eqn:Ex
  end; try done; try (by eapply Hex); try (by eapply IH).
Qed.
Lemma holds_watch b (h : heap V) a m k : holds b (er_h h) a m -> is_bytes k ->
  exists c h', getWatchFrom a k h = (Ok (c, (ref_get m k).1, (ref_get m k).2), h') /\ er_h h' = er_h h.
Proof.
  intros Hh Hk. pose proof (holds_get _ _ _ _ _ Hh Hk) as Hg. rewrite er_getFrom in Hg. unfold getFrom in Hg. unfold getWatchFrom, bind, lift.
  destruct (search (search_fuel (getTreeKey k)) h a (getTreeKey k) 0) as [[la|a']| |] eqn:Es; cbn [obind] in Hg; [| |done..].
  - unfold hloadL. destruct (h_leaves h !! la) as [l|] eqn:El; [|done]. destruct (getMutateChL_ok h la l El) as (c & h' & -> & Eh & _).
    injection Hg as <-. unfold ret. cbn. eauto.
  - destruct (search_missing _ _ _ _ _ _ Es) as [n Hn]. destruct (getMutateChN_ok h a' n Hn) as (c & h' & -> & Eh & _).
    injection Hg as <-. unfold ret. cbn. eauto.
Qed.
Lemma holds_seek b (h : heap V) a m p : holds b h a m -> is_bytes p ->
  exists it c n, seekPrefix h (newIter a) p = Ok it /\ it_node it = Some (RN c) /\ h_nodes h !! c = Some n.
Proof.
  intros [-> (n & la & l & Hn & Hlt & He & Hpl & Hch & Hlf & Hla & Hl & Hk & Hne & Hb)|t Hr Hnd -> Hc] Hp; unfold seekPrefix, newIter; cbn [it_node].
  - replace (length p + 2) with (S (length p + 1)) by lia. cbn [seekLoop]. rewrite Hn, Hpl. cbn [Nat.ltb Nat.leb]. rewrite andb_false_r. cbn [obind].
    assert (Hx : match p !! 0 with None => Ok a | Some c => let? '(child, _) := findChild n c in match child with None => Ok a | Some ca => seekLoop (length p + 1) h ca p (0 + 1) end end = Ok a).
    { destruct p as [|c p]; [done|]. cbn [lookup list_lookup]. rewrite (findChild_None n [] c); [done|done| |done]. unfold is_bytes in Hp. by apply Forall_cons in Hp as [? _]. }
    rewrite Hx. cbn [obind]. eexists _, a, n. split; [reflexivity|]. done.
  - destruct (seekLoop_spec h p Hp t (length p + 2) [] Hr Hnd ltac:(cbn; lia)) as (t' & p' & E & Hr' & _). cbn [length] in E. rewrite E. cbn [obind].
    destruct t' as [a' pre' lf' kids']. apply rep_inv in Hr' as (n' & Hn' & _). eexists _, a', n'. split; [reflexivity|]. done.
Qed.
Lemma holds_seekWatch b (h : heap V) a m p : holds b (er_h h) a m -> is_bytes p ->
  exists q h', seekPrefixWatch (newIter a) p h = (Ok q, h') /\ er_h h' = er_h h.
Proof.
  intros Hh Hp. destruct (holds_seek _ _ _ _ _ Hh Hp) as (it & c & n & E & Ei & Hn). rewrite er_seekPrefix in E.
  unfold seekPrefixWatch, bind, lift. rewrite E, Ei. unfold er_h in Hn. cbn [h_nodes] in Hn. apply lookup_fmap_Some in Hn as (n0 & _ & Hn0).
  destruct (getMutateChN_ok h c n0 Hn0) as (ch & h' & -> & Eh & _). unfold ret. eauto.
Qed.


(** One update of a tree or a transaction *)
Lemma op_tree n (h : heap V) t m d o d' : tok n (er_h h) t (m, d) -> tame_op m d o d' -> (N.of_nat (S n) < 2 ^ 64)%N ->
  exists t' r h', withTxn t (txnOp o) h = (Ok (t', r), h') /\ tok (S n) (er_h h') t' (ref_op o m, d') /\ result_ok m o r.
Proof.
  intros (x & Ht & Hx & Hs) Ho Hn. cbn [fst snd] in *.
  assert (Hw : wp (withTxn t (txnOp o)) (fun p h' => tok (S n) (er_h h') p.1 (ref_op o m, d') /\ result_ok m o p.2) h).
  { eapply wp_mono; [eapply hsim_wp; [apply hsim_withTxn, sim_txnOp|]|].
    - eapply ewithTxn_wp; [exact Ht|]. intros s Hs'. eapply (etxnOp_spec m true); [exact Hs'|exact Hx|exact Ho|done|lia].
    - intros [t' r] h' (s & (x' & Hs' & Hx' & Hl & Hr) & E1 & E2). cbn [fst snd] in *. split; [|done]. exists x'. cbn [fst snd].
      split; [|split; [done|lia]]. rewrite E2, E1. by eapply tstate_tree. }
  apply wp_elim in Hw as ([t' r] & h' & E & Ht' & Hr). eauto 8.
Qed.
Lemma op_txn n (h : heap V) x m d f o d' : xok n (er_h h) x (m, d, f) -> tame_op m d o d' -> (m = ∅ -> (exists k v, o = OInsert k v) -> f = true) ->
  (N.of_nat (S n) < 2 ^ 64)%N ->
  exists r s', txnOp o (mkS h x) = (Ok r, s') /\ xok (S n) (er_h (s_h s')) (s_t s') (ref_op o m, d', false) /\ result_ok m o r.
Proof.
  intros (y & Ht & Hy & Hs) Ho Hb Hn. cbn [fst snd] in *.
  assert (Hw : wp (txnOp o) (fun r s' => xok (S n) (er_h (s_h s')) (s_t s') (ref_op o m, d', false) /\ result_ok m o r) (mkS h x)).
  { eapply wp_mono; [eapply sim_wp; [apply sim_txnOp|]|].
    - eapply (etxnOp_spec m f); [exact Ht|exact Hy|exact Ho|done|lia].
    - intros r s (x' & Hs' & Hx' & Hl & Hr). split; [|done]. exists x'. cbn [fst snd]. split; [exact Hs'|]. split; [done|lia]. }
  apply wp_elim in Hw as (r & s' & E & Ht' & Hr). eauto 8.
Qed.
Lemma onHeap_op {A} (w : world V) t (m : TM A) (f : A -> result V) :
  onHeap w (withTxn t m) (fun p => ([p.1], [], f p.2)) = onHeap w (withTxn t (let! a := m in ret (f a))) (fun p => ([p.1], [], p.2)).
Proof.
  unfold onHeap, withTxn. destruct (newTxn t (w_h w)) as [[tx| |] h1]; [|done..]. unfold bind at 1. destruct (m (mkS h1 tx)) as [[a| |] s]; [|done..].
  unfold ret. by destruct (commit s) as [[t'| |] s'].
Qed.
Lemma onTxn_op {A} (w : world V) j x (m : TM A) (f : A -> result V) :
  onTxn w j x m (fun a => ([], f a)) = onTxn w j x (let! a := m in ret (f a)) (fun r => ([], r)).
Proof. unfold onTxn, bind. by destruct (m (mkS (w_h w) x)) as [[a| |] s]. Qed.

Lemma wok_treeop n (c : call V) (w : world V) g g' i o r0 w0 : wok n w g -> on_tree g i o g' -> (N.of_nat (S n) < 2 ^ 64)%N ->
  withTree w i (fun t => onHeap w (withTxn t (txnOp o)) (fun p => ([p.1], [], p.2))) = (r0, w0) ->
  keeps_tree w w0 -> (forall j, keeps_txn w w0 j) ->
  exists r, r0 = Ok r /\ tree_result g i (fun m => result_ok m o) r /\ wok (S n) w0 g'.
Proof.
  intros Wk Hg Hn E K1 K2. pose proof Wk as [L1 L2 WT WX]. unfold on_tree in Hg. unfold tree_result, withTree in *.
  destruct (w_trees w !! i) as [t|] eqn:Ei.
  - destruct (lookup_lt_is_Some_2 (g_trees g) i) as [[m d] Eu]; [apply lookup_lt_Some in Ei; lia|]. rewrite Eu in Hg |- *.
    destruct Hg as (d' & Ho & ->). destruct (op_tree n (w_h w) t m d o d' (WT _ _ _ Ei Eu) Ho Hn) as (t' & r & h' & E' & Ht & Hr).
    unfold onHeap in E. rewrite E' in E. cbn [fst snd] in E. injection E as <- <-. exists r. split; [done|]. split; [done|].
    eapply wok_addtree; [exact Wk|exact K1|exact K2|done|cbn; by rewrite app_nil_r|exact Ht].
  - apply lookup_ge_None in Ei. rewrite (lookup_ge_None_2 (g_trees g)) in Hg |- * by lia. injection E as <- <-. subst g'.
    exists RUnit. split; [done|]. split; [done|]. by eapply wok_keep.
Qed.
Lemma wok_txnop n (w : world V) g g' j o r0 w0 : wok n w g -> on_txn g j o g' -> (N.of_nat (S n) < 2 ^ 64)%N ->
  withTx w j (fun x => onTxn w j x (txnOp o) (fun r => ([], r))) = (r0, w0) ->
  keeps_tree w w0 -> (forall k, k <> j -> keeps_txn w w0 k) ->
  exists r, r0 = Ok r /\ txn_result g j (fun m => result_ok m o) r /\ wok (S n) w0 g'.
Proof.
  intros Wk Hg Hn E K1 K2. pose proof Wk as [L1 L2 WT WX]. unfold on_txn in Hg. unfold txn_result, withTx in *.
  destruct (w_txns w !! j) as [x|] eqn:Ei.
  - destruct (lookup_lt_is_Some_2 (g_txns g) j) as [[[m d] f] Eu]; [apply lookup_lt_Some in Ei; lia|]. rewrite Eu in Hg |- *.
    destruct Hg as (d' & Ho & Hf & ->). destruct (op_txn n (w_h w) x m d f o d' (WX _ _ _ Ei Eu) Ho Hf Hn) as (r & s' & E' & Ht & Hr).
    unfold onTxn in E. rewrite E' in E. cbn [fst snd] in E. injection E as <- <-. exists r. split; [done|]. split; [done|].
    eapply wok_update; [exact Wk|exact K1|exact K2|cbn; by rewrite app_nil_r|done|exact Ht].
  - apply lookup_ge_None in Ei. rewrite (lookup_ge_None_2 (g_txns g)) in Hg |- * by lia. injection E as <- <-. subst g'.
    exists RUnit. split; [done|]. split; [done|]. eapply wok_keep; [exact Wk|done| |done|done]. intros k. destruct (decide (k = j)) as [->|]; [|auto].
    intros x Hx. apply lookup_lt_Some in Hx. lia.
Qed.

Lemma wok_step n c (w : world V) g g' fr : inv w fr -> (forall j, updates c = Some j -> fr j = false) -> wok n w g -> gstep c g g' -> (N.of_nat (S n) < 2 ^ 64)%N ->
  exists r w', step c w = (Ok r, w') /\ returns c g r /\ wok (S n) w' g'.
Proof.
  intros W Hf Wk Hg Hn. pose proof Wk as [L1 L2 WT WX].
  destruct (step c w) as [o w'] eqn:E. pose proof (step_good c w fr o w' W Hf E) as (_ & K1 & K2).
  enough (exists r, o = Ok r /\ returns c g r /\ wok (S n) w' g') as (r & -> & ?) by eauto.
  assert (Hquiet : (forall j, updates c <> Some j) -> w_trees w' = w_trees w -> length (w_txns w') = length (w_txns w) -> wok (S n) w' g).
  { intros Hu E1 E2. eapply wok_keep; [exact Wk|exact K1|auto|done|done]. }
  assert (Hadd : forall t u, (forall j, updates c <> Some j) -> w_trees w' = w_trees w ++ [t] -> length (w_txns w') = length (w_txns w) ->
    tok (S n) (er_h (w_h w')) t u -> wok (S n) w' (add_tree g u)).
  { intros t u Hu E1 E2 Ht. eapply wok_addtree; [exact Wk|exact K1|auto|done|done|done]. }
  assert (HaddX : forall x u, (forall j, updates c <> Some j) -> w_trees w' = w_trees w -> w_txns w' = w_txns w ++ [x] ->
    xok (S n) (er_h (w_h w')) x u -> wok (S n) w' (add_txn g u)).
  { intros x u Hu E1 E2 Ht. eapply wok_addtxn; [exact Wk|exact K1|auto|done|done|done]. }
  assert (HT : forall i t, w_trees w !! i = Some t -> exists m d x, g_trees g !! i = Some (m, d) /\ tree_ok (er_h (w_h w)) t m x /\ x <= d /\ size m + x <= n).
  { intros i t Ei. destruct (lookup_lt_is_Some_2 (g_trees g) i) as [[m d] Eu]; [apply lookup_lt_Some in Ei; lia|].
    destruct (WT _ _ _ Ei Eu) as (x & Hx). by exists m, d, x. }
  assert (HTn : forall i, w_trees w !! i = None -> g_trees g !! i = None).
  { intros i Ei. apply lookup_ge_None in Ei. apply lookup_ge_None_2. lia. }
  assert (HX : forall j x, w_txns w !! j = Some x -> exists m d f y, g_txns g !! j = Some (m, d, f) /\ tstate f (mkS (er_h (w_h w)) (er_t x)) m y /\ y <= d /\ size m + y <= n).
  { intros i t Ei. destruct (lookup_lt_is_Some_2 (g_txns g) i) as [[[m d] f] Eu]; [apply lookup_lt_Some in Ei; lia|].
    destruct (WX _ _ _ Ei Eu) as (x & Hx). by exists m, d, f, x. }
  assert (HXn : forall i, w_txns w !! i = None -> g_txns g !! i = None).
  { intros i Ei. apply lookup_ge_None in Ei. apply lookup_ge_None_2. lia. }
  destruct c as [|i k v|i k|i k|i|i k|i p|i|j k v|j k|j k|j k|j b|j|j|j|j]; cbn [step returns gstep] in *.
  - (* New *) subst g'. pose proof (newTree_spec (w_h w)) as Hw. apply wp_elim in Hw as (t & h' & Et & Hok).
    unfold onHeap in E. rewrite Et in E. injection E as <- <-. exists RUnit. split; [done|]. split; [done|].
    apply (Hadd t); [done|done|cbn; by rewrite app_nil_r|]. exists 0. cbn. rewrite map_size_empty. split; [done|lia].
  - unfold treeInsert in E. eapply (wok_treeop n (CNew)); [done..| |done|by intros j; apply K2].
    rewrite <- E. unfold withTree. destruct (w_trees w !! i); [|done]. symmetry. apply (onHeap_op w _ (txnInsert k v) (fun p => RVal p.1 p.2)).
  - unfold treeDelete in E. eapply (wok_treeop n (CNew)); [done..| |done|by intros j; apply K2].
    rewrite <- E. unfold withTree. destruct (w_trees w !! i); [|done]. symmetry. apply (onHeap_op w _ (txnDelete k) (fun p => RVal p.1 p.2)).
  - unfold treeDeletePrefix in E. eapply (wok_treeop n (CNew)); [done..| |done|by intros j; apply K2].
    rewrite <- E. unfold withTree. destruct (w_trees w !! i); [|done]. symmetry. apply (onHeap_op w _ (txnDeletePrefix k) (fun p => RBool p)).
  - (* Clone *) unfold withTree in E. destruct (w_trees w !! i) as [t|] eqn:Ei.
    + destruct (HT _ _ Ei) as (m & d & x & Eu & (Hh & Hsz & He) & Hx & Hs). rewrite Eu in Hg. subst g'.
      destruct (holds_clone _ _ _ _ Hh) as (r & h1 & Ec & Hh1). pose proof (hsim_cloneTree t (w_h w)) as Hsim. unfold ecloneTree in Hsim. unfold bind in Hsim at 1. rewrite Ec in Hsim.
      unfold onHeap in E. destruct (cloneTree t (w_h w)) as [[t'| |] h2]; cbn [fst snd omapo] in Hsim; unfold ret, id in Hsim; [|done..].
      pose proof (f_equal fst Hsim) as Q1. pose proof (f_equal snd Hsim) as Q2. cbn in Q1, Q2. injection Q1 as ->. injection E as <- <-.
      exists RUnit. split; [done|]. split; [done|]. eapply Hadd; [done|done|cbn; by rewrite app_nil_r|]. exists x. cbn. split; [|split; [done|lia]].
      split; [|done]. cbn. rewrite Q2. by eapply holds_weaken.
    + rewrite (HTn _ Ei) in Hg. subst g'. injection E as <- <-. exists RUnit. split; [done|]. split; [done|]. by apply Hquiet.
  - (* GetWatch *) destruct Hg as [Hk ->]. unfold withTree, tree_result in *. destruct (w_trees w !! i) as [t|] eqn:Ei.
    + destruct (HT _ _ Ei) as (m & d & x & Eu & (Hh & Hsz & He) & Hx & Hs). rewrite Eu.
      destruct (holds_watch _ _ _ _ _ Hh Hk) as (ch & h' & Ew & _). unfold onHeap, treeGetWatch in E. rewrite Ew in E. cbn in E. injection E as <- <-.
      eexists. split; [done|]. split; [by eexists|]. apply Hquiet; cbn; rewrite ?app_nil_r; done.
    + rewrite (HTn _ Ei). injection E as <- <-. exists RUnit. split; [done|]. split; [done|]. by apply Hquiet.
  - (* SeekPrefixWatch *) destruct Hg as [Hk ->]. unfold withTree, tree_result in *. destruct (w_trees w !! i) as [t|] eqn:Ei.
    + destruct (HT _ _ Ei) as (m & d & x & Eu & (Hh & Hsz & He) & Hx & Hs). rewrite Eu.
      destruct (holds_seekWatch _ _ _ _ _ Hh Hk) as (q & h' & Ew & _). unfold onHeap in E. rewrite Ew in E. cbn in E. injection E as <- <-.
      eexists. split; [done|]. split; [by eexists|]. apply Hquiet; cbn; rewrite ?app_nil_r; done.
    + rewrite (HTn _ Ei). injection E as <- <-. exists RUnit. split; [done|]. split; [done|]. by apply Hquiet.
  - (* Txn *) unfold withTree in E. destruct (w_trees w !! i) as [t|] eqn:Ei.
    + destruct (HT _ _ Ei) as (m & d & x & Eu & (Hh & Hsz & He) & Hx & Hs). rewrite Eu in Hg. subst g'.
      destruct (enewTxn_spec _ _ _ _ Hh) as (r & h1 & Ec & Hh1). pose proof (hsim_newTxn t (w_h w)) as Hsim. rewrite Ec in Hsim.
      unfold onHeap in E. destruct (newTxn t (w_h w)) as [[t'| |] h2]; cbn [fst snd omapo] in Hsim; unfold id in Hsim; [|done..].
      pose proof (f_equal fst Hsim) as Q1. pose proof (f_equal snd Hsim) as Q2. cbn in Q1, Q2. injection Q1 as ->. injection E as <- <-.
      exists RUnit. split; [done|]. split; [done|]. eapply HaddX; [done|cbn; by rewrite app_nil_r|done|]. exists x. cbn. split; [|split; [done|lia]].
      split; [|done]. cbn. by rewrite Q2.
    + rewrite (HTn _ Ei) in Hg. subst g'. injection E as <- <-. exists RUnit. split; [done|]. split; [done|]. by apply Hquiet.
  - eapply wok_txnop; [done..| |done|by intros k' Hk'; apply K2; intros [= ?]].
    rewrite <- E. unfold withTx. destruct (w_txns w !! j); [|done]. symmetry. apply (onTxn_op w j _ (txnInsert k v) (fun p => RVal p.1 p.2)).
  - eapply wok_txnop; [done..| |done|by intros k' Hk'; apply K2; intros [= ?]].
    rewrite <- E. unfold withTx. destruct (w_txns w !! j); [|done]. symmetry. apply (onTxn_op w j _ (txnDelete k) (fun p => RVal p.1 p.2)).
  - eapply wok_txnop; [done..| |done|by intros k' Hk'; apply K2; intros [= ?]].
    rewrite <- E. unfold withTx. destruct (w_txns w !! j); [|done]. symmetry. apply (onTxn_op w j _ (txnDeletePrefix k) (fun p => RBool p)).
  - (* Txn.GetWatch *) destruct Hg as [Hk ->]. unfold withTx, txn_result in *. destruct (w_txns w !! j) as [t|] eqn:Ei.
    + destruct (HX _ _ Ei) as (m & d & f & x & Eu & (Hh & Hsz & He) & Hx & Hs). rewrite Eu.
      destruct (holds_watch _ _ _ _ _ Hh Hk) as (ch & h' & Ew & _). unfold onHeap, txnGetWatch in E. cbn [s_t er_t t_root] in Ew. rewrite Ew in E. cbn in E. injection E as <- <-.
      eexists. split; [done|]. split; [by eexists|]. apply Hquiet; cbn; rewrite ?app_nil_r; done.
    + rewrite (HXn _ Ei). injection E as <- <-. exists RUnit. split; [done|]. split; [done|]. by apply Hquiet.
  - (* TrackMutate *) subst g'. unfold withTx in E. destruct (w_txns w !! j) as [t|] eqn:Ei; injection E as <- <-; (exists RUnit; split; [done|]; split; [done|]).
    + apply Hquiet; [done|done|]. cbn. by rewrite insert_length.
    + by apply Hquiet.
  - (* Commit *) unfold withTx in E. destruct (w_txns w !! j) as [t|] eqn:Ei.
    + destruct (HX _ _ Ei) as (m & d & f & x & Eu & Ht & Hx & Hs). rewrite Eu in Hg. subst g'.
      pose proof (sim_commit (mkS (w_h w) t)) as Hsim. unfold bind, getT, ret in Hsim. unfold onTxn in E.
      destruct (commit (mkS (w_h w) t)) as [[t'| |] s]; cbn [fst snd omapo] in Hsim; unfold id in Hsim; [|done..].
      pose proof (f_equal fst Hsim) as Q1. pose proof (f_equal snd Hsim) as Q2. cbn in Q1, Q2. injection Q1 as ->. injection E as <- <-.
      exists RUnit. split; [done|]. split; [done|]. eapply Hadd; [done|done|cbn; by rewrite insert_length|]. exists x. cbn. split; [|split; [done|lia]].
      apply (f_equal s_h) in Q2. cbn in Q2. rewrite Q2. apply (tstate_tree _ _ _ _ Ht).
    + rewrite (HXn _ Ei) in Hg. subst g'. injection E as <- <-. exists RUnit. split; [done|]. split; [done|]. by apply Hquiet.
  - (* CommitOnly *) unfold withTx in E. destruct (w_txns w !! j) as [t|] eqn:Ei.
    + destruct (HX _ _ Ei) as (m & d & f & x & Eu & Ht & Hx & Hs). rewrite Eu in Hg. subst g'. injection E as <- <-.
      exists RUnit. split; [done|]. split; [done|]. eapply Hadd; [done|done|done|]. exists x. cbn. split; [|split; [done|lia]].
      apply (tstate_tree _ _ _ _ Ht).
    + rewrite (HXn _ Ei) in Hg. subst g'. injection E as <- <-. exists RUnit. split; [done|]. split; [done|]. by apply Hquiet.
  - (* Notify *) subst g'. unfold withTx in E. destruct (w_txns w !! j) as [t|] eqn:Ei.
    + pose proof (sim_notify (mkS (w_h w) t)) as Hsim. unfold ret in Hsim. unfold onTxn in E.
      destruct (notify (mkS (w_h w) t)) as [[t'| |] s]; cbn [fst snd omapo] in Hsim; unfold id in Hsim; [|done..]. injection E as <- <-.
      exists RUnit. split; [done|]. split; [done|]. apply Hquiet; [done|cbn; by rewrite app_nil_r|cbn; by rewrite insert_length].
    + injection E as <- <-. exists RUnit. split; [done|]. split; [done|]. by apply Hquiet.
  - (* Txn.Clone *) unfold withTx in E. destruct (w_txns w !! j) as [t|] eqn:Ei.
    + destruct (HX _ _ Ei) as (m & d & f & x & Eu & (Hh & Hsz & Hsz2 & He) & Hx & Hs). rewrite Eu in Hg. subst g'.
      destruct (holds_clone _ _ _ _ Hh) as (r & h1 & Ec & Hh1). pose proof (hsim_cloneTxn t (w_h w)) as Hsim. unfold ecloneTxn in Hsim. unfold bind in Hsim at 1. cbn in Ec. rewrite Ec in Hsim.
      unfold onHeap in E. destruct (cloneTxn t (w_h w)) as [[t'| |] h2]; cbn [fst snd omapo] in Hsim; unfold ret, id in Hsim; [|done..].
      pose proof (f_equal fst Hsim) as Q1. pose proof (f_equal snd Hsim) as Q2. cbn in Q1, Q2. injection Q1 as ->. injection E as <- <-.
      exists RUnit. split; [done|]. split; [done|]. eapply HaddX; [done|cbn; by rewrite app_nil_r|done|]. exists x. cbn. split; [|split; [done|lia]].
      split; [cbn; by rewrite Q2|done].
    + rewrite (HXn _ Ei) in Hg. subst g'. injection E as <- <-. exists RUnit. split; [done|]. split; [done|]. by apply Hquiet.
Qed.

(** ** Whole histories *)
Lemma wok_init : wok 0 (w_init (V:=V)) g_init.
Proof. split; [done|done|by intros [|?] ??..]. Qed.
Lemma covered_wok cs g : covered cs g -> disciplined cs -> (N.of_nat (length cs) < 2 ^ 64)%N -> exists rs w fr,
  exec cs (w_init (V:=V)) = (rs, w) /\ wok (length cs) w g /\ inv w fr /\
  (forall j, fr j = existsb (fun c => match publishes c with Some k => Nat.eqb k j | None => false end) cs).
Proof.
  induction 1 as [|cs g c g' Hc IH Hg]; intros Hd Hl.
  - exists [], w_init, (fun _ => false). split; [done|]. split; [apply wok_init|]. split; [apply inv_init|done].
  - rewrite app_length in Hl. cbn in Hl. destruct (IH (disciplined_app_l _ _ Hd) ltac:(lia)) as (rs & w & fr & E & Wk & W & Hfr).
    assert (Hu : unfrozen fr [c]) by by eapply disciplined_mid.
    destruct (wok_step (length cs) c w g g' fr W) as (r & w' & E' & Hr & Wk'); [intros j Hj; by apply (Hu 0 c j)|done|done|lia|].
    destruct (exec_good [c] w fr [Ok r] w' W Hu (disciplined_app_r _ _ Hd)) as (fr' & W' & Hfr' & _); [cbn; by rewrite E'|].
    exists (rs ++ [Ok r]), w', fr'. split; [rewrite (exec_app _ _ _ _ _ E); cbn; by rewrite E'|]. split; [rewrite app_length, Nat.add_1_r; exact Wk'|]. split; [done|].
    intros j. rewrite Hfr', Hfr, existsb_app. done.
Qed.
End WorldRef.
