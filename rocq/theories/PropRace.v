(** Goroutines that share memory: no data race, stable snapshots, consistent lookups. *)
From Verif Require Export Observe.
From Verif Require Export MachineInv.
From stdpp Require Import list.
Local Open Scope nat_scope.

Section Race.
Context {V : Type} `{GoZero V}.

Lemma touch_D (g : @gst V) {B} (c : cmd V B) a : good g -> may g c -> touches c a -> gD g a.
Proof. intros Hg Hm Ht. destruct c; cbn in *; try done; subst; try done; by apply gd_W. Qed.
Lemma write_W (g : @gst V) {B} (c : cmd V B) a : may g c -> writes c a -> gW g a.
Proof. intros Hm Ht. destruct c; cbn in *; try done; by subst. Qed.
Lemma next_may (c : cfg V) TD TW PD i t B (cm : cmd V B) k : minv c TD TW PD -> c_th c !! i = Some (Some (Do cm k, t)) ->
  good (mkG (TD i) (TW i) (mkS (c_h c) t)) /\ may (mkG (TD i) (TW i) (mkS (c_h c) t)) cm.
Proof. intros I E. destruct (mi_th _ _ _ _ I i _ _ E) as [Hg Hp]. split; [done|]. exact (proj1 (Hp _ (rely_refl _ Hg))). Qed.
Lemma pub_same_step (c c' : cfg V) TD TW PD i tr : minv c TD TW PD -> mstep c c' -> c_pub c !! i = Some tr ->
  h_next (c_h c) <= h_next (c_h c') /\ (forall x, PD i x -> sameC (c_h c) (c_h c') x).
Proof.
  intros I S. destruct S as [h h' ths pub tr0 E|h ths pub tr0 cl Htr|h ths pub tr0 Htr|h ths pub j t B c k b s Ei Es|h ths pub j t B c k s Ei Es|h ths pub j t r Ei|h ths pub j t o Ei Ho|h h' ths pub Hc];
    cbn [c_h c_th c_pub]; intros Hi; try (split; [done|intros; apply sameC_refl]).
  - unfold newTree, bind, hallocL, hallocN, ret in E. injection E as <- <-. cbn. split; [lia|]. intros x Hx.
    pose proof (pb_lt _ _ _ (mi_pub _ _ _ _ I i tr Hi) x Hx) as Hlt. cbn in Hlt. split; unfold sameN, sameL; cbn; rewrite lookup_insert_ne by lia; done.
  - destruct I as [A1 A2 A3 A4 A5]. cbn in *. destruct (A3 j _ _ Ei) as [Hg Hp]. specialize (Hp _ (rely_refl _ Hg)). cbn [pw] in Hp. destruct Hp as [_ Hp].
    destruct (Hp b s Es) as (g2 & <- & Hg2 & Gu & _). split; [apply (gu_nx _ _ Gu)|]. intros x Hx. apply (gu_same _ _ Gu); cbn.
    + apply (pb_lt _ _ _ (A2 i tr Hi) x Hx).
    + intros Hw. by eapply (A5 j i).
  - rewrite (sem_panic c (mkS h t) s (or_introl Es)). split; [done|intros; apply sameC_refl].
  - destruct Hc as [Hn Hs]. split; [lia|]. intros x _. apply Hs.
Qed.
Lemma pub_keep (c c' : cfg V) i tr : mstep c c' -> c_pub c !! i = Some tr -> c_pub c' !! i = Some tr.
Proof. intros S Hi. destruct S; cbn in *; try done; by apply lookup_app_l_Some. Qed.
Lemma pub_trace (c c' : cfg V) hs i tr : trace c hs c' -> minvX c -> c_pub c !! i = Some tr ->
  forall D, pubok (c_h c) D tr -> (forall x, D x <-> reach (c_h c) (r_root tr) x) -> Forall (fun h => forall x, D x -> sameC (c_h c) h x) hs.
Proof.
  intros T. induction T as [c|c1 c2 hs c3 S T IH]; intros I Hi D P HD.
  - constructor; [|constructor]. intros x _. apply sameC_refl.
  - constructor; [intros x _; apply sameC_refl|]. pose proof (minv_step _ _ I S) as I2. destruct I as (TD & TW & PD & I).
    destruct (pub_same_step _ _ _ _ _ _ _ I S Hi) as [Hn Hs]. pose proof (mi_pub _ _ _ _ I i tr Hi) as Pi.
    assert (Sub : forall x, D x -> sameC (c_h c1) (c_h c2) x). { intros x Hx. apply Hs. eapply pubok_reach; [exact Pi|]. by apply HD. }
    assert (P2 : pubok (c_h c2) D tr) by by eapply pubok_same.
    assert (HD2 : forall x, D x <-> reach (c_h c2) (r_root tr) x).
    { intros x. split; [|intros R; by eapply pubok_reach]. intros Hx. apply HD in Hx. clear P2. induction Hx as [|y n x R IHR En Hp]; [constructor|].
      assert (Dy : D y) by by apply HD. pose proof (proj1 (Sub y Dy)) as Sy. unfold sameN in Sy. rewrite En in Sy. destruct (h_nodes (c_h c2) !! y) as [n2|] eqn:E2; [|done].
      cbn in Sy. apply (inj Some) in Sy. apply (reach_step _ _ y n2 x IHR E2). unfold points in *.
      by rewrite (f_equal n_children Sy : n_children n2 = n_children n), (f_equal n_leaf Sy : n_leaf n2 = n_leaf n). }
    specialize (IH I2 (pub_keep _ _ _ _ S Hi) D P2 HD2). eapply Forall_impl; [exact IH|]. intros h Hh x Hx. eapply sameC_trans; [by apply Sub|by apply Hh].
Qed.
Lemma pub_snap (c c' : cfg V) hs tr : reachable c -> trace c hs c' -> tr ∈ c_pub c ->
  pubok (c_h c) (reach (c_h c) (r_root tr)) tr /\ Forall (fun h => forall x, reach (c_h c) (r_root tr) x -> sameC (c_h c) h x) hs.
Proof.
  intros R T Htr. apply minv_reachable in R. pose proof R as (TD & TW & PD & I). apply elem_of_list_lookup in Htr as (i & Hi). pose proof (mi_pub _ _ _ _ I i tr Hi) as P.
  assert (P' : pubok (c_h c) (reach (c_h c) (r_root tr)) tr).
  { assert (Q : forall x, reach (c_h c) (r_root tr) x -> PD i x) by (intros x; by apply pubok_reach). destruct P as [A1 A2 A3 A4]. split; [constructor| | |].
    - intros x Hx. by apply A2, Q.
    - intros x n Hx En. destruct (A3 x n) as [B1 B2]; [by apply Q|done|]. split; [done|]. intros y Hy. by eapply reach_step.
    - intros x l Hx El. apply (A4 x); [by apply Q|done]. }
  split; [done|]. by eapply pub_trace.
Qed.
Lemma msteps_trace (c c' : cfg V) : msteps c c' -> exists hs, trace c hs c' /\ c_h c' ∈ hs.
Proof.
  intros S. induction S as [c|c1 c2 c3 S IH S3]; [exists [c_h c]; split; [constructor|left]|]. destruct IH as (hs & T & _). clear S.
  assert (Q : exists hs2, trace c1 hs2 c3 /\ c_h c3 ∈ hs2); [|done]. induction T as [c|c1 c2 hs c3' S T IH].
  - exists [c_h c; c_h c3]. split; [econstructor; [done|constructor]|right; left].
  - destruct (IH S3) as (hs2 & T2 & H2). exists (c_h c1 :: hs2). split; [by econstructor|by right].
Qed.

(** *** Readers *)
Lemma obs_same {A} h0 (D : addr -> Prop) hs (p : prog V A) o :
  (forall x n, D x -> h_nodes h0 !! x = Some n -> forall y, points n y -> D y) ->
  Forall (fun h => forall x, D x -> sameC h0 h x) hs -> obs hs p o ->
  forall K : addr -> Prop, (forall x, K x -> D x) -> follows K p -> fst (run p (seen h0)) = o.
Proof.
  intros HD HF Ho. induction Ho as [h hs o|h hs p o Ho IH|h hs B c k b s o E Ho IH|h hs B c k s E]; intros K HK Hp.
  - done.
  - apply Forall_cons in HF as [_ HF]. by eapply IH.
  - pose proof (Forall_inv HF) as Hh. cbn [follows] in Hp. destruct Hp as [Ka Hp]. destruct c; try done; cbn [sem] in *.
    + assert (Da := HK _ Ka). destruct (Hh _ Da) as [SN _]. unfold sameN in SN.
      unfold loadN, liftH, hloadN in E. cbn in E. rewrite lookup_fmap, SN in E.
      cbn [run sem]. unfold bind, loadN, liftH, hloadN. cbn. rewrite lookup_fmap. destruct (h_nodes h0 !! a) as [n|] eqn:En; [|done]. cbn in E |- *. injection E as <- <-.
      apply (IH HF _) with (2 := Hp (er_n n)). intros x [Hx|Hx]; [by apply HK|]. by apply (HD a n Da En).
    + assert (Da := HK _ Ka). destruct (Hh _ Da) as [_ SL]. unfold sameL in SL.
      unfold loadL, liftH, hloadL in E. cbn in E. rewrite lookup_fmap, SL in E.
      cbn [run sem]. unfold bind, loadL, liftH, hloadL. cbn. rewrite lookup_fmap. destruct (h_leaves h0 !! a) as [n|] eqn:En; [|done]. cbn in E |- *. injection E as <- <-.
      apply (IH HF _) with (2 := Hp (er_l n)). intros x [Hx|[]]. by apply HK.
  - pose proof (Forall_inv HF) as Hh. cbn [follows] in Hp. destruct Hp as [Ka Hp]. destruct c; try done; cbn [sem] in *.
    + assert (Da := HK _ Ka). destruct (Hh _ Da) as [SN _]. unfold sameN in SN. unfold loadN, liftH, hloadN in E. cbn in E. rewrite lookup_fmap, SN in E.
      cbn [run sem]. unfold bind, loadN, liftH, hloadN. cbn. rewrite lookup_fmap. destruct (h_nodes h0 !! a) as [n|] eqn:En; done.
    + assert (Da := HK _ Ka). destruct (Hh _ Da) as [_ SN]. unfold sameL in SN. unfold loadL, liftH, hloadL in E. cbn in E. rewrite lookup_fmap, SN in E.
      cbn [run sem]. unfold bind, loadL, liftH, hloadL. cbn. rewrite lookup_fmap. destruct (h_leaves h0 !! a) as [n|] eqn:En; done.
Qed.

(** Get follows pointers *)
Lemma fo_mono {A} (p : prog V A) : forall (K K' : addr -> Prop), (forall x, K x -> K' x) -> follows K p -> follows K' p.
Proof.
  induction p as [o|B c k IH]; intros K K' HK; [done|]. cbn [follows]. intros [Ha Hk]. split; [destruct c; try done; by apply HK|]. intros b. eapply IH; [|apply Hk]. cbn. intros x [?|?]; [left; by apply HK|by right].
Qed.
Fixpoint fpost {A} (K : addr -> Prop) (p : prog V A) (Q : (addr -> Prop) -> A -> Prop) : Prop :=
  match p with
  | PRet (Ok a) => Q K a
  | PRet _ => True
  | @Do _ _ B c k =>
      match c with LoadN a | LoadL a => K a | _ => False end /\
      forall b : B, fpost (fun x => K x \/ match c in cmd _ B0 return B0 -> Prop with LoadN _ => fun n => points n x | _ => fun _ => False end b) (k b) Q
  end.
Lemma fpost_follows {A} (p : prog V A) : forall K Q, fpost K p Q -> follows K p.
Proof. induction p as [o|B c k IH]; intros K Q; [done|]. cbn. intros [Ha Hk]. split; [done|]. intros b. eapply IH, Hk. Qed.
Lemma fpost_bind {A B} (p : prog V A) (f : A -> prog V B) : forall K Q, fpost K p (fun K' a => fpost K' (f a) Q) -> fpost K (pbind p f) Q.
Proof. induction p as [o|C c k IH]; intros K Q; [by destruct o|]. cbn. intros [Ha Hk]. split; [done|]. intros b. apply IH, Hk. Qed.
Lemma fpost_mono {A} (p : prog V A) : forall (K K' : addr -> Prop) (Q Q' : (addr -> Prop) -> A -> Prop), (forall x, K x -> K' x) -> 
  (forall (K1 K1' : addr -> Prop) a, (forall x, K1 x -> K1' x) -> (forall x, K x -> K1 x) -> Q K1 a -> Q' K1' a) -> fpost K p Q -> fpost K' p Q'.
Proof.
  induction p as [o|B c k IH]; intros K K' Q Q' HK HQ; [destruct o; cbn; try done; by apply HQ|]. cbn. intros [Ha Hk]. split; [destruct c; try done; by apply HK|].
  intros b. eapply IH; [| |apply Hk]; cbn.
  - intros x [?|?]; [left; by apply HK|by right].
  - intros K1 K1' a H1 H2. apply HQ; [done|]. intros x Hx. apply H2. by left.
Qed.
Definition oK (K : addr -> Prop) (o : option addr) : Prop := match o with Some a => K a | None => True end.
Lemma fp_ownLeaf key n (K : addr -> Prop) : (forall y, points n y -> K y) -> fpost K (pownLeaf key n) (fun K' o => oK K' o /\ forall x, K x -> K' x).
Proof.
  intros Hn. unfold pownLeaf. destruct (n_leaf n) as [la|] eqn:El; [|done]. cbn. split; [apply Hn; by right|]. intros l. destruct (leafMatches _ _); cbn; [|by auto].
  split; [left; apply Hn; by right|auto].
Qed.
Lemma fp_scan key cs : forall (K : addr -> Prop), (forall y, Some y ∈ cs -> K y) -> fpost K (pscanChildren key cs) (fun K' o => oK K' o /\ forall x, K x -> K' x).
Proof.
  induction cs as [|[c|] cs IH]; intros K Hc; [done| |apply IH; intros; apply Hc; by right]. cbn. split; [apply Hc; left|]. intros cn. destruct (n_leaf cn) as [la|] eqn:El.
  - cbn. split; [right; by right|]. intros l. destruct (leafMatches _ _); [cbn; split; [left; right; by right|auto]|].
    eapply fpost_mono; [|  |apply (IH (fun x => (K x \/ points cn x) \/ False)); intros; left; left; apply Hc; by right]; [done|]. cbn. intros K1 K1' a H1 H2 [Q1 Q2]. split; [destruct a; [by apply H1|done]|auto].
  - eapply fpost_mono; [|  |apply (IH (fun x => K x \/ points cn x)); intros; left; apply Hc; by right]; [done|]. cbn. intros K1 K1' a H1 H2 [Q1 Q2]. split; [destruct a; [by apply H1|done]|auto].
Qed.
Definition rK (K : addr -> Prop) (r : sres) : Prop := match r with Found a => K a | Missing _ => True end.
Lemma fp_exit key a n (K : addr -> Prop) : (forall y, points n y -> K y) -> fpost K (psearchExit key a n) (fun K' r => rK K' r).
Proof.
  intros Hn. unfold psearchExit. apply fpost_bind. eapply fpost_mono; [| |by apply fp_ownLeaf]; [done|]. cbn. intros K1 K1' o H1 H2 [Q1 Q2]. destruct o as [la|]; [by apply H1|].
  apply fpost_bind. eapply fpost_mono; [| |apply (fp_scan _ _ K1')]; [done| |intros y Hy; apply H1, H2, Hn; by left]. cbn.
  intros K2 K2' o H3 H4 [Q3 Q4]. destruct o as [la|]; [by apply H3|done].
Qed.
Lemma fp_lift {A} (o : outcome A) (K : addr -> Prop) (Q : (addr -> Prop) -> A -> Prop) : (forall a, o = Ok a -> Q K a) -> fpost K (plift o) Q.
Proof. intros HQ. destruct o; cbn; auto. Qed.
Lemma fp_pl K (b : bool) (o : outcome nat) (Q : (addr -> Prop) -> nat -> Prop) : (forall n, Q K n) -> fpost K (if b then plift o else pret 0) Q.
Proof. intros HQ. destruct b; [apply fp_lift; intros a _|]; apply HQ. Qed.
Lemma fp_search f key : forall a depth (K : addr -> Prop), K a -> fpost K (psearch f a key depth) (fun K' r => rK K' r).
Proof.
  induction f as [|f IH]; intros a depth K Ka; [done|]. cbn [psearch]. apply fpost_bind. cbn. split; [done|]. intros n.
  set (K1 := fun x => K x \/ points n x). assert (Hn : forall y, points n y -> K1 y) by (by right). clearbody K1.
  assert (Tail : forall (K : addr -> Prop) (b : bool) d, (forall y, points n y -> K y) -> fpost K (if b then psearchExit key a n else
    match key !! d with
    | Some c => pbind (plift (findChild n c)) (fun r => match r.1 with Some ca => psearch f ca key (d + 1) | None => psearchExit key a n end)
    | None => psearchExit key a n end) (fun K' r => rK K' r)).
  { intros K2 b d Hn2. destruct b; [by apply fp_exit|]. destruct (key !! d); [|by apply fp_exit]. apply fpost_bind, fp_lift. intros [[ca|] i] Ef; cbn; [|by apply fp_exit].
    apply IH, Hn2. left. apply (P_findChild (fun o => match o with Some y => Some y ∈ n_children n | None => True end) Logic.I _ _ _ _ Ef). apply Forall_forall. by intros [y|] Hy. }
  apply fpost_bind. destruct (isLeafN n).
  - eapply fpost_mono; [| |by apply fp_ownLeaf]; [done|]. cbn. intros K2 K2' o H1 H2 [Q1 Q2]. destruct o as [la|]; [by apply H1|]. cbn [fst snd].
    assert (Hn2 : forall y, points n y -> K2' y) by (intros y Hy; by apply H1, H2, Hn).
    apply fpost_bind. eapply (fp_pl K2'). intros pl. by apply Tail.
  - apply fpost_bind. eapply (fp_pl K1). intros pl. by apply Tail.
Qed.
Lemma fo_get root key : follows (eq root) (pgetFrom root key).
Proof.
  apply fpost_follows with (Q := fun _ _ => True). unfold pgetFrom. apply fpost_bind. eapply fpost_mono; [| |by apply (fp_search _ _ _ _ (eq root))]; [done|]. cbn.
  intros K1 K1' [la|a] H1 H2 Hr; cbn; [|done]. split; [by apply H1|done].
Qed.
End Race.

(** *** C54 The programs that the goroutines run are the functions of the model, as sequences of memory accesses. *)
Lemma C54_model_proof {V} `{GoZero V} (s : st V) (tr : rtree) (k : bytes) (v : V) :
  run (ptxnInsert k v) s = txnInsert k v s /\ run (ptxnDelete k) s = txnDelete k s /\ run (ptxnDeletePrefix k) s = txnDeletePrefix k s /\
  run pcommit s = commit s /\ run (pgetFrom (r_root tr) k) s = (getFrom (s_h s) (r_root tr) k, s) /\
  (forall t h, newTxn tr (s_h s) = (Ok t, h) -> run (pnewTxn tr) s = (Ok tt, mkS h t)) /\
  (forall t h, cloneTree tr (s_h s) = (Ok t, h) -> run (cloner tr) s = (Ok (Some t), mkS h (s_t s))).
Proof.
  split_and!; [apply req_txnInsert|apply req_txnDelete|apply req_txnDeletePrefix|apply req_commit|apply run_getFrom| |].
  - intros t h E. by rewrite run_newTxn, E.
  - intros t h E. unfold cloner. rewrite run_pbind. unfold bind. rewrite req_cloneN. unfold liftH. unfold cloneTree, bind in E.
    destruct (cloneN (r_root tr) true (s_h s)) as [[a| |] h']; [|done..]. injection E as <- <-. done.
Qed.
(** *** C54 No data race: a cell that the next command of one goroutine writes is not accessed by the next command of another one,
    and is in no tree that has been handed out. *)
Lemma C54_race_proof {V} `{GoZero V} (c : cfg V) i j ti tj B C (ci : cmd V B) (cj : cmd V C) ki kj a :
  reachable c -> i <> j -> c_th c !! i = Some (Some (Do ci ki, ti)) -> c_th c !! j = Some (Some (Do cj kj, tj)) -> writes ci a -> ~ touches cj a.
Proof.
  intros R Hij Ei Ej Hw Ht. apply minv_reachable in R as (TD & TW & PD & I). destruct (next_may _ _ _ _ _ _ _ _ _ I Ei) as [Gi Mi]. destruct (next_may _ _ _ _ _ _ _ _ _ I Ej) as [Gj Mj].
  eapply (mi_sep _ _ _ _ I i j); [exact Ei|exact Ej|done|exact (write_W _ _ _ Mi Hw)|exact (touch_D _ _ _ Gj Mj Ht)].
Qed.
Lemma C54_published_proof {V} `{GoZero V} (c : cfg V) i t B (cm : cmd V B) k tr a :
  reachable c -> c_th c !! i = Some (Some (Do cm k, t)) -> tr ∈ c_pub c -> reach (c_h c) (r_root tr) a -> ~ writes cm a.
Proof.
  intros R Ei Htr Ha Hw. apply minv_reachable in R as (TD & TW & PD & I). destruct (next_may _ _ _ _ _ _ _ _ _ I Ei) as [Gi Mi].
  apply elem_of_list_lookup in Htr as (j & Ej). eapply (mi_sepp _ _ _ _ I i j); [exact Ei|exact Ej|exact (write_W _ _ _ Mi Hw)|]. eapply pubok_reach; [by apply (mi_pub _ _ _ _ I)|done].
Qed.
(** *** C54 Snapshots: whatever the goroutines do, every read of a tree that has been handed out keeps its result. *)
Lemma C54_snapshot_proof {V} `{GoZero V} (c c' : cfg V) tr :
  reachable c -> tr ∈ c_pub c -> msteps c c' -> reads_same (r_root tr) (c_h c) (c_h c').
Proof.
  intros R Htr S. destruct (msteps_trace _ _ S) as (hs & T & Hin). destruct (pub_snap _ _ _ _ R T Htr) as [P HF].
  apply same_reads. rewrite Forall_forall in HF. specialize (HF _ Hin).
  assert (Hn : h_next (c_h c) <= h_next (c_h c')).
  { pose proof (minv_reachable _ R) as I. clear -S I. induction S as [|c1 c2 c3 S IH S3]; [done|]. specialize (IH I). pose proof (minv_steps _ _ I S) as (TD & TW & PD & I2).
    etransitivity; [exact IH|]. destruct S3 as [h h' ths pub tr0 E|h ths pub tr0 cl Htr|h ths pub tr0 Htr|h ths pub j t B c k b s Ei Es|h ths pub j t B c k s Ei Es|h ths pub j t r Ei|h ths pub j t o Ei Ho|h h' ths pub Hc]; cbn; try done.
    - unfold newTree, bind, hallocL, hallocN, ret in E. injection E as <- <-. cbn. lia.
    - destruct (mi_th _ _ _ _ I2 j _ _ Ei) as [Hg Hp]. specialize (Hp _ (rely_refl _ Hg)). cbn [pw] in Hp. destruct Hp as [_ Hp]. destruct (Hp b s Es) as (g2 & <- & Hg2 & Gu & _). apply (gu_nx _ _ Gu).
    - by rewrite (sem_panic c (mkS h t) s (or_introl Es)).
    - destruct Hc as [-> _]. done. }
  apply same_intro; [done|]. intros x Hx. cbn. rewrite !lookup_fmap.
  assert (Rx : reach (c_h c) (r_root tr) x).
  { clear -Hx. induction Hx as [|y n x R IH En Hp]; [constructor|]. cbn in En. rewrite lookup_fmap in En. destruct (h_nodes (c_h c) !! y) as [m|] eqn:Em; [|done]. injection En as <-. by apply (reach_step _ _ y m x IH Em). }
  destruct (HF x Rx) as [A1 A2]. by split.
Qed.
(** *** C54 Readers: a reader that runs meanwhile on a tree that has been handed out, follows pointers from its root and is stopped
    and resumed anywhere, gets what it would have got alone at the start. *)
Lemma C54_reader_proof {V} `{GoZero V} {A} (c c' : cfg V) hs tr (p : prog V A) o :
  reachable c -> tr ∈ c_pub c -> trace c hs c' -> follows (eq (r_root tr)) p -> obs hs p o -> fst (run p (seen (c_h c))) = o.
Proof.
  intros R Htr T Hp Ho. destruct (pub_snap _ _ _ _ R T Htr) as [P HF]. eapply obs_same; [|exact HF|exact Ho| |exact Hp].
  - intros x n Hx En. apply (pb_node _ _ _ P x n Hx En).
  - intros x <-. constructor.
Qed.
Lemma C54_get_proof {V} `{GoZero V} (c c' : cfg V) hs tr k o :
  reachable c -> tr ∈ c_pub c -> trace c hs c' -> obs hs (pgetFrom (r_root tr) k) o -> o = getFrom (c_h c) (r_root tr) k.
Proof.
  intros R Htr T Ho. pose proof (C54_reader_proof c c' hs tr _ o R Htr T (fo_get _ _) Ho) as E. rewrite run_getFrom in E. cbn [fst] in E. rewrite <- E.
  apply (er_getFrom (c_h c)).
Qed.

(** A schedule: (i, n) runs n commands of goroutine i. *)
Section Sched.
Context {V : Type} `{GoZero V}.
Fixpoint steps_of (n : nat) (p : prog V (option rtree)) (s : st V) : prog V (option rtree) * st V :=
  match n, p with
  | S m, Do c k => match sem c s with (Ok b, s') => steps_of m (k b) s' | _ => (p, s) end
  | _, _ => (p, s)
  end.
Lemma steps_msteps n : forall h ths pub i p t q s, ths !! i = Some (Some (p, t)) -> steps_of n p (mkS h t) = (q, s) ->
  msteps (mkC h ths pub) (mkC (s_h s) (<[i := Some (q, s_t s)]> ths) pub).
Proof.
  induction n as [|n IH]; intros h ths pub i p t q s Ei E.
  - injection E as <- <-. cbn. rewrite list_insert_id by done. constructor.
  - destruct p as [o|B c k]; cbn in E.
    + injection E as <- <-. cbn. rewrite list_insert_id by done. constructor.
    + destruct (sem c (mkS h t)) as [[b| |] s1] eqn:Es; [|injection E as <- <-; cbn; rewrite list_insert_id by done; constructor..].
      destruct s1 as [h1 t1]. assert (L : i < length ths) by (by eapply lookup_lt_Some).
      pose proof (m_cmd h ths pub i t B c k b _ Ei Es) as M. cbn [s_h s_t] in M.
      pose proof (IH h1 (<[i:=Some (k b, t1)]> ths) pub i (k b) t1 q s (list_lookup_insert _ _ _ L) E) as M2. rewrite list_insert_insert in M2.
      clear -M M2. induction M2 as [c|c1 c2 c3 M2 IHM S]; [econstructor; [constructor|done]|]. econstructor; [by apply IHM|done].
Qed.
Inductive move := NEW | GO (tr : rtree) (c : client V) | RUN (i n : nat) | END (i : nat).
Definition play1 (m : move) (c : cfg V) : option (cfg V) :=
  match m with
  | NEW => match newTree (c_h c) with (Ok tr, h) => Some (mkC h (c_th c) (c_pub c ++ [tr])) | _ => None end
  | GO tr cl => if existsb (fun t => Nat.eqb (r_root t) (r_root tr) && N.eqb (r_size t) (r_size tr) && Nat.eqb (r_max t) (r_max tr)) (c_pub c)
      then Some (mkC (c_h c) (c_th c ++ [Some (goroutine tr cl, noTxn tr)]) (c_pub c)) else None
  | RUN i n => match c_th c !! i with
      | Some (Some (p, t)) => let '(q, s) := steps_of n p (mkS (c_h c) t) in Some (mkC (s_h s) (<[i := Some (q, s_t s)]> (c_th c)) (c_pub c))
      | _ => None end
  | END i => match c_th c !! i with
      | Some (Some (PRet (Ok r), t)) => Some (mkC (c_h c) (<[i := None]> (c_th c)) (c_pub c ++ match r with Some tr => [tr] | None => [] end))
      | _ => None end
  end.
Fixpoint play (ms : list move) (c : cfg V) : option (cfg V) := match ms with [] => Some c | m :: ms => match play1 m c with Some c' => play ms c' | None => None end end.
Lemma msteps_trans (a b c : cfg V) : msteps a b -> msteps b c -> msteps a c.
Proof. intros A B. induction B as [|c1 c2 c3 B IH S]; [done|]. econstructor; [by apply IH|done]. Qed.
Lemma play1_msteps m c c' : play1 m c = Some c' -> msteps c c'.
Proof.
  destruct c as [h ths pub]. destruct m as [|tr cl|i n|i]; cbn.
  - intros E. injection E as <-. econstructor; [constructor|]. by constructor.
  - destruct (existsb _ _) eqn:Ex; [|done]. intros [= <-]. econstructor; [constructor|]. constructor.
    apply existsb_exists in Ex as (t & Hin & E). rewrite !andb_true_iff in E. destruct E as [[E1%Nat.eqb_eq E2%N.eqb_eq] E3%Nat.eqb_eq].
    apply elem_of_list_In. destruct t, tr; cbn in *; by subst.
  - destruct (ths !! i) as [[[p t]|]|] eqn:Ei; [|done..]. destruct (steps_of n p (mkS h t)) as [q s] eqn:Es. intros [= <-]. by eapply steps_msteps.
  - destruct (ths !! i) as [[[[[r| |]|] t]|]|] eqn:Ei; try done. intros [= <-]. econstructor; [constructor|]. by eapply m_done.
Qed.
Lemma play_msteps ms : forall c c', play ms c = Some c' -> msteps c c'.
Proof.
  induction ms as [|m ms IH]; intros c c' E; [injection E as <-; constructor|]. cbn in E. destruct (play1 m c) as [c1|] eqn:E1; [|done].
  eapply msteps_trans; [by eapply play1_msteps|by apply IH].
Qed.
Definition after (ms : list move) : cfg V := default cfg0 (play ms cfg0).
Lemma after_reachable ms : is_Some (play ms cfg0) -> reachable (after ms).
Proof. intros [c E]. unfold after. rewrite E. by eapply play_msteps. Qed.
End Sched.
Arguments move V : clear implicits.

(** Two goroutines start on the same tree (keys a, ab), alternate every few commands and commit; the second deletes what the first updates.
    In between both are about to store to cells of their own.  Each committed tree has its own updates only; the first one is unchanged. *)
Definition txn1 : client nat := GInsert [97] 5 (fun _ => GInsert [98] 6 (fun _ => GCommit)).
Definition txn2 : client nat := GDelete [97] (fun _ => GInsert [99] 7 (fun _ => GCommit)).
Definition t0 : rtree := nth 0 (c_pub (after (V:=nat) [NEW])) (mkT 0 0 0).
Definition sched0 : list (move nat) := [NEW; GO t0 (GInsert [97] 1 (fun _ => GInsert [97; 98] 2 (fun _ => GCommit))); RUN 0 1000; END 0].
Definition sched1 (n : nat) : list (move nat) :=
  let t1 := nth 1 (c_pub (after sched0)) t0 in sched0 ++ [GO t1 txn1; GO t1 txn2] ++ concat (replicate n [RUN 1 3; RUN 2 4]).
Definition sched2 : list (move nat) := sched1 40 ++ [RUN 1 1000; RUN 2 1000; END 1; END 2].
Definition stores (c : cfg nat) (i : nat) : option addr :=
  match c_th c !! i with Some (Some (Do (StoreN a _) _, _)) | Some (Some (Do (StoreL a _) _, _)) => Some a | _ => None end.
Example ex_C54 :
  reachable (after sched2) /\ stores (after (sched1 12)) 1 = Some 13 /\ stores (after (sched1 13)) 2 = Some 10 /\
  (let c := after sched2 in map (fun t => map (fun k => getFrom (c_h c) (r_root t) k) [[97]; [97; 98]; [98]; [99]]) (c_pub c)) =
    [[Ok (0, false); Ok (0, false); Ok (0, false); Ok (0, false)];
     [Ok (1, true); Ok (2, true); Ok (0, false); Ok (0, false)];
     [Ok (5, true); Ok (2, true); Ok (6, true); Ok (0, false)];
     [Ok (0, false); Ok (2, true); Ok (0, false); Ok (7, true)]].
Proof. split; [apply after_reachable; vm_compute; eauto|]. split_and!; vm_compute; reflexivity. Qed.
