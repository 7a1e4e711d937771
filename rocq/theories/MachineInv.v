(** Goroutines never write a cell that another one or a reader can see. *)
From Verif Require Export ProgOwn Machine.
Local Open Scope nat_scope.

Section MachineInv.
Context {V : Type} `{GoZero V}.
Notation gst := (@gst V).

(** A tree that has been handed out: D is a set of cells that is closed under pointers, with ids up to the maximum of the tree *)
Record pubok (h : heap V) (D : addr -> Prop) (tr : rtree) : Prop := mk_pub {
  pb_root : D (r_root tr);
  pb_lt : forall x, D x -> x < h_next h;
  pb_node : forall x n, D x -> h_nodes h !! x = Some n -> n_id n <= r_max tr /\ forall y, points n y -> D y;
  pb_leaf : forall x l, D x -> h_leaves h !! x = Some l -> l_id l <= r_max tr }.
Definition post (r : option rtree) (g : gst) : Prop := match r with Some tr => hands g tr | None => True end.
Definition thok (g : gst) (p : prog V (option rtree)) : Prop := good g /\ forall g', rely g g' -> pw p post g'.
Record minv (c : cfg V) (TD TW PD : nat -> addr -> Prop) : Prop := mk_minv {
  mi_fresh : forall x, h_next (c_h c) <= x -> h_nodes (c_h c) !! x = None /\ h_leaves (c_h c) !! x = None;
  mi_pub : forall i tr, c_pub c !! i = Some tr -> pubok (c_h c) (PD i) tr;
  mi_th : forall i p t, c_th c !! i = Some (Some (p, t)) -> thok (mkG (TD i) (TW i) (mkS (c_h c) t)) p;
  mi_sep : forall i j p t q u x, c_th c !! i = Some (Some (p, t)) -> c_th c !! j = Some (Some (q, u)) -> i <> j -> TW i x -> TD j x -> False;
  mi_sepp : forall i j p t tr x, c_th c !! i = Some (Some (p, t)) -> c_pub c !! j = Some tr -> TW i x -> PD j x -> False }.
Definition minvX (c : cfg V) : Prop := exists TD TW PD, minv c TD TW PD.

Lemma pubok_same h h' D tr : pubok h D tr -> h_next h <= h_next h' -> (forall x, D x -> sameC h h' x) -> pubok h' D tr.
Proof.
  intros [A1 A2 A3 A4] Hn HS. split; [done| | |].
  - intros x Hx. specialize (A2 x Hx). lia.
  - intros x n Hx En. destruct (sameN_back _ _ _ _ (proj1 (HS x Hx)) En) as (m & Hm & E). destruct (A3 x m Hx Hm) as [B1 B2].
    split; [by rewrite <- (f_equal n_id E : n_id m = n_id n)|]. intros y Hy. apply B2. unfold points in *.
    by rewrite (f_equal n_children E : n_children m = n_children n), (f_equal n_leaf E : n_leaf m = n_leaf n).
  - intros x n Hx En. destruct (sameL_back _ _ _ _ (proj2 (HS x Hx)) En) as (m & Hm & E). rewrite <- (f_equal l_id E : l_id m = l_id n). by apply (A4 x).
Qed.
Lemma pubok_reach h D tr x : pubok h D tr -> reach h (r_root tr) x -> D x.
Proof. intros P R. induction R as [|y n x R IH En Hp]; [apply P|]. destruct (pb_node _ _ _ P y n IH En) as [_ Hq]. by apply Hq. Qed.
Lemma thok_rely g g' p : thok g p -> rely g g' -> thok g' p.
Proof. intros [Hg Hp] R. split; [by eapply rely_good|]. intros g2 R2. apply Hp. by eapply rely_trans. Qed.

(** *** Programs of goroutines *)
Definition allspec (p : prog V (option rtree)) (g : gst) : Prop := spec p post g.
Lemma sp_client c : forall g, good g -> spec (pclient c) post g.
Proof.
  induction c as [k v next IH|k next IH|k next IH|k next IH|b next IH| |]; intros g Hg; cbn [pclient].
  - eapply sp_bind; [by apply sp_txnInsert|]. intros r g' Hg' _ _. by apply IH.
  - eapply sp_bind; [by apply sp_txnDelete|]. intros r g' Hg' _ _. by apply IH.
  - eapply sp_bind; [by apply sp_txnDeletePrefix|]. intros r g' Hg' _ _. by apply IH.
  - eapply sp_bind; [by apply sp_getT|]. intros t g1 Hg1 G1 ->. eapply sp_bind; [apply sp_getFrom; [done|apply (gd_root _ Hg1)]|]. intros r g' Hg' _ _. by apply IH.
  - eapply sp_bind; [by apply sp_getT|]. intros t g1 Hg1 G1 ->. eapply sp_bind; [apply sp_putT; [done|apply (gd_root _ Hg1)|done|done]|]. intros r g' Hg' _ _. by apply IH.
  - eapply sp_bind; [by apply sp_commit|]. intros r g' Hg' _ Hh. by apply sp_ret.
  - by apply sp_ret.
Qed.
Lemma thok_spec g p : good g -> (forall g', good g' -> rely g g' -> spec p post g') -> thok g p.
Proof.
  intros Hg Hp. split; [done|]. intros g' R. pose proof (rely_good _ _ Hg R) as Hg'. apply (Hp g' Hg' R). by intros a g2 _ _ Hq.
Qed.
Lemma good_start h D tr : (forall x, h_next h <= x -> h_nodes h !! x = None /\ h_leaves h !! x = None) -> pubok h D tr -> good (mkG D (fun _ => False) (mkS h (noTxn tr))).
Proof.
  intros Hf [A1 A2 A3 A4]. split; cbn; auto; try done.
  - intros x n En Hx. destruct (A3 x n Hx En) as [B1 B2]. split; [|lia]. split; cbn; [done| |].
    + intros [y|] Hy; [|done]. apply B2. by left.
    + destruct (n_leaf n) as [y|] eqn:El; [|done]. apply B2. by right.
  - intros x l El Hx. specialize (A4 x l Hx El). split; [done|lia].
Qed.
Lemma thok_goroutine h D tr c : (forall x, h_next h <= x -> h_nodes h !! x = None /\ h_leaves h !! x = None) -> pubok h D tr ->
  thok (mkG D (fun _ => False) (mkS h (noTxn tr))) (goroutine tr c).
Proof.
  intros Hf P. apply thok_spec; [by apply good_start|]. intros g' Hg' R. unfold goroutine. eapply sp_bind.
  - apply sp_newTxn; [done|rewrite (ry_D _ _ R); apply P|by rewrite (ry_t _ _ R)..].
  - intros r g2 Hg2 _ _. by apply sp_client.
Qed.
Lemma thok_cloner h D tr : (forall x, h_next h <= x -> h_nodes h !! x = None /\ h_leaves h !! x = None) -> pubok h D tr ->
  thok (mkG D (fun _ => False) (mkS h (noTxn tr))) (cloner tr).
Proof.
  intros Hf P. apply thok_spec; [by apply good_start|]. intros g' Hg' R. unfold cloner. eapply sp_bind.
  - apply sp_noPut; [|apply sp_cloneN; [done|rewrite (ry_D _ _ R); apply P]]. cbn. split; [done|]. intros n. destruct (n_ch n); cbn; repeat (split; [done|intros]); done.
  - intros r g2 Hg2 G [Wr E]. apply sp_ret; [done|]. split; [by apply gW_D|]. cbn. rewrite E, (ry_t _ _ R). done.
Qed.

(** *** Every step keeps the invariant *)
Lemma good_pub h t TD TW tr : good (mkG TD TW (mkS h t)) -> hands (mkG TD TW (mkS h t)) tr -> pubok h TD tr.
Proof.
  intros Hg [H1 H2]. cbn in H1, H2. split; [done| | |].
  - apply (gd_lt _ Hg).
  - intros x n Hx En. destruct (gd_node _ Hg x n En Hx) as [[B1 B2 B3] _]. cbn in *. split; [lia|]. intros y [Hy|Hy]; [by apply (B2 (Some y))|by rewrite Hy in B3].
  - intros x l Hx El. destruct (gd_lf _ Hg x l El Hx) as [B1 _]. cbn in *. lia.
Qed.
Lemma lookup_snoc {A} (l : list A) x i y : (l ++ [x]) !! i = Some y -> l !! i = Some y \/ (i = length l /\ y = x).
Proof. intros E. apply lookup_app_Some in E as [E|[Hi E]]; [by left|right]. apply list_lookup_singleton_Some in E as [? ?]. split; [lia|done]. Qed.
Lemma minv_spawn h ths pub TD TW PD tr p : minv (mkC h ths pub) TD TW PD -> tr ∈ pub ->
  (forall D, pubok h D tr -> thok (mkG D (fun _ => False) (mkS h (noTxn tr))) p) -> minvX (mkC h (ths ++ [Some (p, noTxn tr)]) pub).
Proof.
  intros [A1 A2 A3 A4 A5] Htr Hp. cbn in *. apply elem_of_list_lookup in Htr as (k & Hk). pose proof (A2 _ _ Hk) as Pk.
  exists (fun i => if decide (i = length ths) then PD k else TD i), (fun i => if decide (i = length ths) then (fun _ => False) else TW i), PD.
  assert (L : forall i q, ths !! i = Some q -> i <> length ths) by (intros i q E; apply lookup_lt_Some in E; lia).
  split; cbn; [done|done| | |].
  - intros i q t E. apply lookup_snoc in E as [E|[-> E]].
    + rewrite !decide_False by by eapply L. by apply A3.
    + injection E as -> ->. rewrite !decide_True by done. by apply Hp.
  - intros i j p1 t1 q1 u1 x Ei Ej Hij Hw Hd. apply lookup_snoc in Ei as [Ei|[-> Ei]]; [|by rewrite decide_True in Hw].
    rewrite decide_False in Hw by by eapply L. apply lookup_snoc in Ej as [Ej|[-> Ej]].
    + rewrite decide_False in Hd by by eapply L. by eapply (A4 i j).
    + rewrite decide_True in Hd by done. by eapply (A5 i k).
  - intros i j p1 t1 tr1 x Ei Ej Hw Hd. apply lookup_snoc in Ei as [Ei|[-> Ei]]; [|by rewrite decide_True in Hw].
    rewrite decide_False in Hw by by eapply L. by eapply (A5 i j).
Qed.
Lemma th_insert (ths : list (option (prog V (option rtree) * txn))) i o j q : <[i := o]> ths !! j = Some q -> (j = i /\ q = o) \/ (j <> i /\ ths !! j = Some q).
Proof. intros E. apply list_lookup_insert_Some in E as [(-> & -> & _)|[Hne E]]; [by left|right; by split]. Qed.
Lemma minv_kill h ths pub TD TW PD i : minv (mkC h ths pub) TD TW PD -> minv (mkC h (<[i := None]> ths) pub) TD TW PD.
Proof.
  intros [A1 A2 A3 A4 A5]. cbn in *. split; cbn; [done|done| | |].
  - intros j q t E. apply th_insert in E as [[-> E]|[_ E]]; [done|by apply A3].
  - intros a b p1 t1 q1 u1 x Ei Ej. apply th_insert in Ei as [[-> Ei]|[_ Ei]]; [done|]. apply th_insert in Ej as [[-> Ej]|[_ Ej]]; [done|]. by eapply A4.
  - intros a b p1 t1 tr1 x Ei Ej. apply th_insert in Ei as [[-> Ei]|[_ Ei]]; [done|]. by eapply A5.
Qed.
Lemma minv_watch h h' ths pub TD TW PD : minv (mkC h ths pub) TD TW PD -> chanOnly h h' -> minv (mkC h' ths pub) TD TW PD.
Proof.
  intros [A1 A2 A3 A4 A5] [Hn HS]. cbn in *. assert (F : forall x, h_next h' <= x -> h_nodes h' !! x = None /\ h_leaves h' !! x = None).
  { intros x Hx. rewrite Hn in Hx. destruct (A1 x Hx) as [F1 F2]. destruct (HS x) as [S1 S2]. rewrite F1 in S1. rewrite F2 in S2.
    split; [by destruct (h_nodes h' !! x)|by destruct (h_leaves h' !! x)]. }
  split; cbn; [done| | |done|done].
  - intros i tr E. eapply pubok_same; [by apply A2|lia|]. intros x _. apply HS.
  - intros i p t E. eapply thok_rely; [by apply A3|]. split; cbn; try done; [lia|]. intros x _. apply HS.
Qed.
Definition newD (h : heap V) : addr -> Prop := fun x => x = h_next h \/ x = S (h_next h).
Lemma minv_new h h' ths pub TD TW PD tr : minv (mkC h ths pub) TD TW PD -> newTree h = (Ok tr, h') ->
  minv (mkC h' ths (pub ++ [tr])) TD TW (fun i => if decide (i = length pub) then newD h else PD i) /\ h_next h <= h_next h' /\
  (forall x, x < h_next h -> sameC h h' x).
Proof.
  intros I E.
  destruct I as [A1 A2 A3 A4 A5]. cbn in *. unfold newTree, bind, hallocL, hallocN, ret in E. injection E as <- <-. cbn.
  set (D := newD h).
  set (h' := mkH _ _ _ _ _).
  assert (HS : forall x, x < h_next h -> sameC h h' x). { intros x Hx. split; unfold sameN, sameL; cbn; rewrite lookup_insert_ne by lia; done. }
  assert (F : forall x, h_next h' <= x -> h_nodes h' !! x = None /\ h_leaves h' !! x = None).
  { intros x Hx. cbn in Hx |- *. rewrite !lookup_insert_ne by lia. apply A1. lia. }
  assert (R : forall i p t, ths !! i = Some (Some (p, t)) -> rely (mkG (TD i) (TW i) (mkS h t)) (mkG (TD i) (TW i) (mkS h' t))).
  { intros i p t E. split; cbn; try done; [lia|]. intros x Hx. apply HS. destruct (A3 i p t E) as [Hg _]. apply (gd_lt _ Hg x Hx). }
  split; [|split; [cbn; lia|exact HS]].
  assert (L : forall i (q : rtree), pub !! i = Some q -> i <> length pub) by (intros i q E; apply lookup_lt_Some in E; lia).
  split; cbn; [exact F| | |done|].
  + intros i tr E. apply lookup_snoc in E as [E|[-> ->]].
    * rewrite decide_False by by eapply L. pose proof (A2 _ _ E) as P. eapply pubok_same; [exact P|cbn; lia|]. intros x Hx. apply HS. by apply P.
    * rewrite decide_True by done. split; cbn.
      -- by right.
      -- unfold D, newD. lia.
      -- intros x n Hx En. apply lookup_insert_Some in En as [[<- <-]|[Hne En]].
         ++ cbn. split; [lia|]. intros y [Hy|Hy]; [apply elem_of_replicate in Hy as [? _]; done|]. cbn in Hy. injection Hy as <-. by left.
         ++ destruct Hx as [->| ->]; [|done]. destruct (A1 (h_next h)) as [F1 _]; [lia|]. by rewrite F1 in En.
      -- intros x l Hx El. apply lookup_insert_Some in El as [[<- <-]|[Hne El]]; [done|]. destruct Hx as [->| ->]; [done|]. destruct (A1 (S (h_next h))) as [_ F1]; [lia|]. by rewrite F1 in El.
  + intros i p t E. eapply thok_rely; [by apply A3|]. by eapply R.
  + intros i j p t tr x Ei Ej Hw Hd. apply lookup_snoc in Ej as [Ej|[-> ->]].
    * rewrite decide_False in Hd by by eapply L. by eapply A5.
    * rewrite decide_True in Hd by done. destruct (A3 i p t Ei) as [Hg _]. pose proof (gd_lt _ Hg x (gd_W _ Hg x Hw)) as Hlt. cbn in Hlt. unfold D, newD in Hd. lia.
Qed.
Lemma minv_cmd h ths pub TD TW PD i t B (c : cmd V B) k b s : minv (mkC h ths pub) TD TW PD -> ths !! i = Some (Some (Do c k, t)) -> sem c (mkS h t) = (Ok b, s) ->
  exists D2 W2, minv (mkC (s_h s) (<[i := Some (k b, s_t s)]> ths) pub) (fun j => if decide (j = i) then D2 else TD j) (fun j => if decide (j = i) then W2 else TW j) PD /\
    (forall x, W2 x -> TW i x \/ h_next h <= x) /\ h_next h <= h_next (s_h s) /\ (forall x, x < h_next h -> ~ TW i x -> sameC h (s_h s) x).
Proof.
  intros I Ei Es.
  destruct I as [A1 A2 A3 A4 A5]. cbn in *. destruct (A3 i _ _ Ei) as [Hg Hp]. specialize (Hp _ (rely_refl _ Hg)). cbn [pw] in Hp. destruct Hp as [_ Hp].
  destruct (Hp b s Es) as (g2 & E2 & Hg2 & Gu & HR). destruct g2 as [D2 W2 s2]. cbn in E2. subst s2. destruct s as [h' t']. cbn [s_h s_t].
  assert (HS : forall j q u x, ths !! j = Some (Some (q, u)) -> j <> i -> TD j x -> sameC h h' x).
  { intros j q u x Ej Hne Hx. apply (gu_same _ _ Gu); cbn; [|intros Hw; by eapply (A4 i j)]. destruct (A3 j q u Ej) as [Hgj _]. apply (gd_lt _ Hgj x Hx). }
  exists D2, W2. split; [|split_and!; [apply (gu_W _ _ Gu)|apply (gu_nx _ _ Gu)|apply (gu_same _ _ Gu)]].
  split; cbn; [apply (gd_fresh _ Hg2)| | | |].
  + intros j tr Ej. eapply pubok_same; [by apply A2|apply (gu_nx _ _ Gu)|]. intros x Hx. apply (gu_same _ _ Gu); cbn; [by apply (pb_lt _ _ _ (A2 _ _ Ej))|]. intros Hw. by eapply (A5 i j).
  + intros j q u E. apply th_insert in E as [[-> E]|[Hne E]].
    * injection E as -> ->. rewrite !decide_True by done. split; [done|exact HR].
    * rewrite !decide_False by done. eapply thok_rely; [by apply A3|]. split; cbn; try done; [apply (gu_nx _ _ Gu)|apply (gd_fresh _ Hg2)|]. intros x Hx. by eapply HS.
  + intros a c0 p1 t1 q1 u1 x Ea Ec Hne Hw Hd. apply th_insert in Ea as [[-> Ea]|[Hna Ea]].
    * rewrite decide_True in Hw by done. rewrite decide_False in Hd by done. apply th_insert in Ec as [[-> Ec]|[_ Ec]]; [done|].
      destruct (gu_W _ _ Gu x Hw) as [Hw'|Hge]; [by eapply (A4 i c0)|]. cbn in Hge. destruct (A3 _ _ _ Ec) as [Hgj _]. pose proof (gd_lt _ Hgj x Hd) as Hlt. cbn in Hlt. lia.
    * rewrite decide_False in Hw by done. apply th_insert in Ec as [[-> Ec]|[Hnc Ec]].
      -- rewrite decide_True in Hd by done. destruct (gu_D _ _ Gu x Hd) as [Hd'|Hge]; [by eapply (A4 a i)|]. cbn in Hge.
         destruct (A3 _ _ _ Ea) as [Hgj _]. pose proof (gd_lt _ Hgj x (gd_W _ Hgj x Hw)) as Hlt. cbn in Hlt. lia.
      -- rewrite decide_False in Hd by done. by eapply (A4 a c0).
  + intros a j p1 t1 tr x Ea Ej Hw Hd. apply th_insert in Ea as [[-> Ea]|[Hna Ea]].
    * rewrite decide_True in Hw by done. destruct (gu_W _ _ Gu x Hw) as [Hw'|Hge]; [by eapply (A5 i j)|]. cbn in Hge. pose proof (pb_lt _ _ _ (A2 _ _ Ej) x Hd). lia.
    * rewrite decide_False in Hw by done. by eapply (A5 a j).
Qed.
Lemma minv_done h ths pub TD TW PD i t r : minv (mkC h ths pub) TD TW PD -> ths !! i = Some (Some (PRet (Ok r), t)) ->
  minv (mkC h (<[i := None]> ths) (pub ++ match r with Some tr => [tr] | None => [] end)) TD TW (fun j => if decide (j = length pub) then TD i else PD j).
Proof.
  intros I Ei.
  pose proof (minv_kill _ _ _ _ _ _ i I) as I'. destruct r as [tr|].
  2: { rewrite app_nil_r. destruct I' as [B1 B2 B3 B4 B5]. split; [done| |done|done|].
       - intros j q E. cbn in E. rewrite decide_False by (apply lookup_lt_Some in E; lia). by apply B2.
       - intros a j p1 u1 q x Ea E. cbn in E. rewrite decide_False by (apply lookup_lt_Some in E; lia). by eapply B5. }
  destruct I as [A1 A2 A3 A4 A5]. destruct I' as [B1 B2 B3 B4 B5]. cbn in *. destruct (A3 i _ _ Ei) as [Hg Hp]. specialize (Hp _ (rely_refl _ Hg)). cbn in Hp.
  assert (L : forall i (q : rtree), pub !! i = Some q -> i <> length pub) by (intros j q E; apply lookup_lt_Some in E; lia).
  split; cbn; [done| |done|done|].
  + intros j tr0 E. apply lookup_snoc in E as [E|[-> ->]].
    * rewrite decide_False by by eapply L. by apply A2.
    * rewrite decide_True by done. by eapply good_pub.
  + intros a j p1 t1 tr0 x Ea Ej Hw Hd. apply th_insert in Ea as [[-> Ea]|[Hna Ea]]; [done|]. apply lookup_snoc in Ej as [Ej|[-> ->]].
    * rewrite decide_False in Hd by by eapply L. by eapply (A5 a j).
    * rewrite decide_True in Hd by done. by eapply (A4 a i).
Qed.
Lemma minv_step c c' : minvX c -> mstep c c' -> minvX c'.
Proof.
  intros (TD & TW & PD & I) S. destruct S as [h h' ths pub tr E|h ths pub tr cl Htr|h ths pub tr Htr|h ths pub i t B c k b s Ei Es|h ths pub i t B c k s Ei Es|h ths pub i t r Ei|h ths pub i t o Ei Ho|h h' ths pub Hc].
  - (* new tree *)
    destruct (minv_new _ _ _ _ _ _ _ _ I E) as [I' _]. by eexists _, _, _.
  - eapply minv_spawn; [exact I|done|]. intros D P. apply thok_goroutine; [apply I|done].
  - eapply minv_spawn; [exact I|done|]. intros D P. apply thok_cloner; [apply I|done].
  - (* a command *)
    destruct (minv_cmd _ _ _ _ _ _ _ _ _ _ _ _ _ I Ei Es) as (D2 & W2 & I' & _). by eexists _, _, _.
  - apply (minv_kill _ _ _ _ _ _ i) in I. exists TD, TW, PD. rewrite (sem_panic c (mkS h t) s (or_introl Es)). exact I.
  - (* commit *)
    pose proof (minv_done _ _ _ _ _ _ _ _ _ I Ei) as I'. by eexists _, _, _.
  - exists TD, TW, PD. by apply minv_kill.
  - exists TD, TW, PD. by eapply minv_watch.
Qed.
Lemma minv_steps c c' : minvX c -> msteps c c' -> minvX c'.
Proof. intros I S. induction S as [|c1 c2 c3 S IH S3]; [done|]. eapply minv_step; [by apply IH|done]. Qed.
Lemma minv_0 : minvX cfg0.
Proof.
  exists (fun _ _ => False), (fun _ _ => False), (fun _ _ => False). split; cbn; try done.
Qed.
Lemma minv_reachable c : reachable c -> minvX c.
Proof. intros R. eapply minv_steps; [apply minv_0|done]. Qed.
End MachineInv.
