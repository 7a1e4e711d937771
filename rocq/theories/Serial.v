(** Every execution of goroutines is equivalent to a serial one, in the order in which they end. *)
From Verif Require Export SerialWorld ProgRel HeapRel MachineInv.
From stdpp Require Import list.
Local Open Scope nat_scope.

Section Serial.
Context {V : Type} `{GoZero V}.
Notation corr := (bool -> addr -> addr -> Prop).
Notation gst := (@gst V).
Implicit Types b : corr.
Notation srel := (srel (V:=V)).
Notation prel := (prel (V:=V)).

(** *** A program alone *)
Lemma guar_refl (g : gst) : good g -> guar g g.
Proof. intros Hg. split; auto; [by apply grow_refl|]. intros. apply sameC_refl. Qed.
Lemma guar_trans (a b c : gst) : guar a b -> guar b c -> guar a c.
Proof.
  intros [A1 A2 A3 A4 A5] [B1 B2 B3 B4 B5]. split.
  - intros x Hx. destruct (B1 x Hx) as [Hx'|]; [by apply A1|right; lia].
  - intros x Hx. destruct (B2 x Hx) as [Hx'|]; [by apply A2|right; lia].
  - lia.
  - by eapply grow_trans.
  - intros x Hx HW. eapply sameC_trans; [by apply A5|]. apply B5; [lia|]. intros HW'. destruct (A2 x HW'); [done|lia].
Qed.
Lemma pw_run {A} (p : prog V A) Q g o s : good g -> pw p Q g -> run p (gs g) = (o, s) -> exists g', gs g' = s /\ good g' /\ guar g g' /\ forall a, o = Ok a -> Q a g'.
Proof.
  revert g. induction p as [r|C c k IH]; intros g Hg Hp E.
  - cbn [run] in E. unfold lift in E. injection E as <- <-. exists g. split_and!; [done|done|by apply guar_refl|]. intros a ->. done.
  - cbn [run] in E. unfold bind in E. destruct Hp as [_ Hp]. destruct (sem c (gs g)) as [[x| |] s1] eqn:Es.
    + destruct (Hp x s1 eq_refl) as (g2 & E2 & Hg2 & Gu & HR). subst s1. specialize (HR g2 (rely_refl _ Hg2)). destruct (IH x g2 Hg2 HR E) as (g' & F1 & F2 & F3 & F4).
      exists g'. split_and!; [done|done|by eapply guar_trans|done].
    + injection E as <- <-. rewrite (sem_panic c _ _ (or_introl Es)). exists g. split_and!; [done|done|by apply guar_refl|done].
    + injection E as <- <-. rewrite (sem_panic c _ _ (or_intror Es)). exists g. split_and!; [done|done|by apply guar_refl|done].
Qed.
Lemma thok_job h D tr g : (forall x, h_next h <= x -> h_nodes h !! x = None /\ h_leaves h !! x = None) -> pubok h D tr ->
  thok (mkG D (fun _ => False) (mkS h (noTxn tr))) (jprog g tr).
Proof. intros. destruct g; [by apply thok_cloner|by apply thok_goroutine|by apply thok_cloner]. Qed.

(** *** The serial memory *)
Definition sok (S : heap V * list rtree) : Prop :=
  (forall x, h_next S.1 <= x -> h_nodes S.1 !! x = None /\ h_leaves S.1 !! x = None) /\ forall i T, S.2 !! i = Some T -> exists D, pubok S.1 D T.
Lemma jrun_ok S g : sok S -> sok (jrun S g) /\ h_next S.1 <= h_next (jrun S g).1 /\ (forall x, x < h_next S.1 -> sameC S.1 (jrun S g).1 x).
Proof.
  intros [Hf Hp]. destruct g as [|i c|i].
  - assert (I : minv (mkC S.1 [] []) (fun _ _ => False) (fun _ _ => False) (fun _ _ => False)) by by split.
    cbn [jrun]. destruct (newTree S.1) as [o h'] eqn:E. assert (exists tr, o = Ok tr) as [tr ->]. { unfold newTree, bind, hallocL, hallocN, ret in E. injection E as <- _. eauto. }
    destruct (minv_new _ _ _ _ _ _ _ _ I E) as (I' & Hn & HS). cbn. split; [|done]. split; [apply I'|]. cbn. intros i T Ei. apply lookup_snoc in Ei as [Ei|[-> ->]].
    + destruct (Hp i T Ei) as [D P]. exists D. eapply pubok_same; [exact P|done|]. intros x Hx. apply HS. by apply P.
    + eexists. apply (mi_pub _ _ _ _ I' 0). done.
  - cbn [jrun]. destruct (S.2 !! jbase (JTxn i c)) as [T|] eqn:ET; [|split; [done|split; [done|intros; apply sameC_refl]]].
    destruct (Hp _ _ ET) as [D P]. destruct (thok_job S.1 D T (JTxn i c) Hf P) as [Hg Hw]. specialize (Hw _ (rely_refl _ Hg)).
    destruct (run _ _) as [o s] eqn:Er. destruct (pw_run _ _ _ _ _ Hg Hw Er) as (g' & E' & Hg' & Gu & HQ).
    assert (HS : forall x, x < h_next S.1 -> sameC S.1 (s_h s) x). { intros x Hx. rewrite <- E'. apply (gu_same _ _ Gu x Hx). intros []. }
    assert (Hn : h_next S.1 <= h_next (s_h s)). { rewrite <- E'. apply (gu_nx _ _ Gu). }
    assert (Hold : forall i T, S.2 !! i = Some T -> exists D, pubok (s_h s) D T).
    { intros j T' Ej. destruct (Hp j T' Ej) as [D' P']. exists D'. eapply pubok_same; [exact P'|done|]. intros x Hx. apply HS. by apply P'. }
    assert (Hfr : forall x, h_next (s_h s) <= x -> h_nodes (s_h s) !! x = None /\ h_leaves (s_h s) !! x = None). { rewrite <- E'. apply (gd_fresh _ Hg'). }
    destruct o as [[T'|]| |]; cbn [fst snd]; (split; [|done]); split; cbn [fst snd]; try done.
    intros j T2 Ej. apply lookup_snoc in Ej as [Ej|[-> ->]]; [by eapply Hold|]. specialize (HQ _ eq_refl). cbn [post] in HQ. destruct g' as [D2 W2 [h2 t2]]. cbn in E'. subst s.
    exists D2. by eapply good_pub.
  - cbn [jrun]. destruct (S.2 !! jbase (JClone i)) as [T|] eqn:ET; [|split; [done|split; [done|intros; apply sameC_refl]]].
    destruct (Hp _ _ ET) as [D P]. destruct (thok_job S.1 D T (JClone i) Hf P) as [Hg Hw]. specialize (Hw _ (rely_refl _ Hg)).
    destruct (run _ _) as [o s] eqn:Er. destruct (pw_run _ _ _ _ _ Hg Hw Er) as (g' & E' & Hg' & Gu & HQ).
    assert (HS : forall x, x < h_next S.1 -> sameC S.1 (s_h s) x). { intros x Hx. rewrite <- E'. apply (gu_same _ _ Gu x Hx). intros []. }
    assert (Hn : h_next S.1 <= h_next (s_h s)). { rewrite <- E'. apply (gu_nx _ _ Gu). }
    assert (Hold : forall i T, S.2 !! i = Some T -> exists D, pubok (s_h s) D T).
    { intros j T' Ej. destruct (Hp j T' Ej) as [D' P']. exists D'. eapply pubok_same; [exact P'|done|]. intros x Hx. apply HS. by apply P'. }
    assert (Hfr : forall x, h_next (s_h s) <= x -> h_nodes (s_h s) !! x = None /\ h_leaves (s_h s) !! x = None). { rewrite <- E'. apply (gd_fresh _ Hg'). }
    destruct o as [[T'|]| |]; cbn [fst snd]; (split; [|done]); split; cbn [fst snd]; try done.
    intros j T2 Ej. apply lookup_snoc in Ej as [Ej|[-> ->]]; [by eapply Hold|]. specialize (HQ _ eq_refl). cbn [post] in HQ. destruct g' as [D2 W2 [h2 t2]]. cbn in E'. subst s.
    exists D2. by eapply good_pub.
Qed.

(** *** A goroutine in the middle of its work *)
Definition tsim (h : heap V) (own : addr -> Prop) (base : addr -> Prop) (p : prog V (option rtree)) (t : txn) (g : job V) (tr : rtree) : Prop :=
  forall H T b0, hrel b0 h H -> tR b0 tr T -> (forall k x y, b0 k x y -> base x) ->
    (run (jprog g T) (mkS H (noTxn T))).1 = NoFuel \/
    exists b q s', run (jprog g T) (mkS H (noTxn T)) = run q s' /\ srel false b h t (s_h s') (s_t s') /\ prel false otR b p q /\ forall k x y, b k x y -> ~ own x.
(** The goroutine against a run from the moment when it started, in a memory that is not larger: it ends. *)
Definition tend (h : heap V) (own : addr -> Prop) (p : prog V (option rtree)) (t : txn) : Prop :=
  exists b q s', (run q s').1 <> NoFuel /\ srel true b h t (s_h s') (s_t s') /\ prel true otR b p q /\ forall k x y, b k x y -> ~ own x.
Definition tinv h own base p t g tr : Prop := tsim h own base p t g tr /\ ~ ~ tend h own p t.
Definition others (ths : list (option (prog V (option rtree) * txn))) (TW : nat -> addr -> Prop) (i : nat) (x : addr) : Prop :=
  exists j q u, j <> i /\ ths !! j = Some (Some (q, u)) /\ TW j x.
Record inv (c : cfg V) (js gs : list (job V)) TD TW PD : Prop := mk_inv {
  iv_minv : minv c TD TW PD;
  iv_len : length (serial js).2 = length (c_pub c);
  iv_sok : sok (serial js);
  iv_pub : forall i tr T, c_pub c !! i = Some tr -> (serial js).2 !! i = Some T -> exists b, hrel b (c_h c) (serial js).1 /\ tR b tr T /\ forall k x y, b k x y -> PD i x;
  iv_gs : length gs = length (c_th c);
  iv_th : forall i p t g, c_th c !! i = Some (Some (p, t)) -> gs !! i = Some g -> g <> JNew /\ exists tr, c_pub c !! jbase g = Some tr /\ tinv (c_h c) (others (c_th c) TW i) (PD (jbase g)) p t g tr }.
Lemma sameC_sym (h h' : heap V) x : sameC h h' x -> sameC h' h x.
Proof. intros [A B]. split; unfold sameN, sameL in *; congruence. Qed.
Lemma tsim_same h h2 (own own2 base : addr -> Prop) p t g tr : tsim h own base p t g tr -> h_next h <= h_next h2 ->
  (forall x, base x -> x < h_next h /\ sameC h h2 x) -> (forall x, x < h_next h -> ~ own x -> sameC h h2 x /\ ~ own2 x) -> tsim h2 own2 base p t g tr.
Proof.
  intros I Hn HB HS H' T b0 Hb Ht Hd. destruct (I H' T b0) as [Z|(b & q & s' & E1 & E2 & E3 & E4)]; [|done|done|by left|].
  - eapply hrel_left; [exact Hb|]. intros k x y Hxy. destruct (HB x (Hd _ _ _ Hxy)). split; [done|by apply sameC_sym].
  - right. exists b, q, s'. split_and!; [done| |done|].
    + apply hrel_srel; [|apply E2|done]. eapply hrel_left; [by eapply srel_hrel|]. intros k x y Hxy. destruct (sr_lt _ _ _ _ _ _ E2 _ _ _ Hxy). split; [lia|]. apply HS; [done|by eapply E4].
    + intros k x y Hxy. destruct (sr_lt _ _ _ _ _ _ E2 _ _ _ Hxy). apply HS; [done|by eapply E4].
Qed.
Lemma tend_same h h2 (own own2 : addr -> Prop) p t : tend h own p t -> h_next h <= h_next h2 ->
  (forall x, x < h_next h -> ~ own x -> sameC h h2 x /\ ~ own2 x) -> tend h2 own2 p t.
Proof.
  intros (b & q & s' & E1 & E2 & E3 & E4) Hn HS. exists b, q, s'. split_and!; [done| |done|].
  - apply hrel_srel; [|apply E2|intros Hf; pose proof (sr_next _ _ _ _ _ _ E2 Hf); lia]. eapply hrel_left; [by eapply srel_hrel|].
    intros k x y Hxy. destruct (sr_lt _ _ _ _ _ _ E2 _ _ _ Hxy). split; [lia|]. apply HS; [done|by eapply E4].
  - intros k x y Hxy. destruct (sr_lt _ _ _ _ _ _ E2 _ _ _ Hxy). apply HS; [done|by eapply E4].
Qed.
Lemma tinv_same h h2 (own own2 base : addr -> Prop) p t g tr : tinv h own base p t g tr -> h_next h <= h_next h2 ->
  (forall x, base x -> x < h_next h /\ sameC h h2 x) -> (forall x, x < h_next h -> ~ own x -> sameC h h2 x /\ ~ own2 x) -> tinv h2 own2 base p t g tr.
Proof. intros [I1 I2] Hn HB HS. split; [by eapply tsim_same|]. intros HN. apply I2. intros I3. apply HN. by eapply tend_same. Qed.
Lemma tR_trel b tr T : tR b tr T -> trel b (noTxn tr) (noTxn T).
Proof. intros (A & B & C). split; cbn; auto. Qed.
Lemma pr_job fo b tr tr' (g : job V) : bij b -> tR b tr tr' -> prel fo otR b (jprog g tr) (jprog g tr').
Proof. intros. destruct g; [by apply pr_cloner|by apply pr_goroutine|by apply pr_cloner]. Qed.
Lemma tsim_start h (own base : addr -> Prop) g tr : (forall x, base x -> ~ own x) -> tsim h own base (jprog g tr) (noTxn tr) g tr.
Proof.
  intros HO H' T b0 Hb Ht Hd. right. exists b0, (jprog g T), (mkS H' (noTxn T)). split_and!; [done| | |].
  - by apply hrel_srel; [|apply tR_trel|].
  - apply pr_job; [apply Hb|done].
  - intros k x y Hxy. apply HO. by eapply Hd.
Qed.

Lemma tend_start b0 h H' (own base : addr -> Prop) g tr T : g <> JNew -> hrel b0 h H' -> ranked H' -> tR b0 tr T -> (forall k x y, b0 k x y -> base x) ->
  (forall x, base x -> ~ own x) -> ~ ~ tend h own (jprog g tr) (noTxn tr).
Proof.
  intros Hg Hb Hr (Ht & _) Hd HO HN. apply (left_ends b0 h H' Hb Hr). intros (h0 & Hr0 & _ & HR0 & Hf). apply HN.
  assert (Hroot : idc b0 true (r_root tr) (r_root tr)) by (split; [done|by exists (r_root T)]). assert (tR (idc b0) tr tr) by done.
  exists (idc b0), (jprog g tr), (mkS h0 (noTxn tr)). split_and!.
  - apply jprog_ends; [done|done|]. rewrite Hf. apply (hr_lt _ _ _ Hb _ _ _ Ht).
  - apply hrel_srel; [done|by apply tR_trel|]. cbn. lia.
  - apply pr_job; [apply HR0|done].
  - intros k x y [-> [z Hz]]. apply HO. by eapply Hd.
Qed.

(** A goroutine against the serial memory *)
Lemma inv_use c js gs TD TW PD i p t g : inv c js gs TD TW PD -> c_th c !! i = Some (Some (p, t)) -> gs !! i = Some g ->
  exists T b q s', (serial js).2 !! jbase g = Some T /\ run (jprog g T) (mkS (serial js).1 (noTxn T)) = run q s' /\ (run q s').1 <> NoFuel /\
    srel false b (c_h c) t (s_h s') (s_t s') /\ prel false otR b p q.
Proof.
  intros [I1 I2 I3 I4 I5 I6] Ei Eg. destruct (I6 i p t g Ei Eg) as (Hg & tr & Etr & It). assert (exists T, (serial js).2 !! jbase g = Some T) as [T ET].
  { apply lookup_lt_is_Some. rewrite I2. by eapply lookup_lt_Some. }
  destruct (I4 _ _ _ Etr ET) as (b0 & Hb & Ht & Hd). pose proof (serial_ends js g T Hg ET) as Hne. destruct It as [It _]. destruct (It _ _ _ Hb Ht Hd) as [Z|(b & q & s' & E1 & E2 & E3 & E4)]; [done|].
  exists T, b, q, s'. split_and!; try done. by rewrite <- E1.
Qed.

(** *** Steps *)
Lemma others_lt c js gs TD TW PD i x : inv c js gs TD TW PD -> others (c_th c) TW i x -> x < h_next (c_h c).
Proof. intros I (j & q & u & _ & Ej & Hw). destruct (mi_th _ _ _ _ (iv_minv _ _ _ _ _ _ I) j q u Ej) as [Hg _]. apply (gd_lt _ Hg x (gd_W _ Hg x Hw)). Qed.
Lemma base_ok c js gs TD TW PD i tr : inv c js gs TD TW PD -> c_pub c !! i = Some tr -> forall x, PD i x -> x < h_next (c_h c).
Proof. intros I E x Hx. apply (pb_lt _ _ _ (mi_pub _ _ _ _ (iv_minv _ _ _ _ _ _ I) _ _ E) x Hx). Qed.
Lemma inv_spawn h ths pub js gs TD TW PD g tr : inv (mkC h ths pub) js gs TD TW PD -> g <> JNew -> pub !! jbase g = Some tr ->
  exists TD' TW', inv (mkC h (ths ++ [Some (jprog g tr, noTxn tr)]) pub) js (gs ++ [g]) TD' TW' PD.
Proof.
  intros I Hg Etr. pose proof I as [I1 I2 I3 I4 I5 I6]. pose proof I1 as [A1 A2 A3 A4 A5]. cbn in *. pose proof (A2 _ _ Etr) as Pk.
  assert (L : forall i q, ths !! i = Some q -> i <> length ths) by (intros i q E; apply lookup_lt_Some in E; lia).
  set (TW' := fun i => if decide (i = length ths) then (fun _ => False) else TW i).
  assert (HO : forall i x, others (ths ++ [Some (jprog g tr, noTxn tr)]) TW' i x -> others ths TW i x).
  { intros i x (j & q & u & Hj & Ej & Hw). unfold TW' in Hw. apply lookup_snoc in Ej as [Ej|[-> Ej]]; [|by rewrite decide_True in Hw]. rewrite decide_False in Hw by by eapply L.
    exists j, q, u. done. }
  exists (fun i => if decide (i = length ths) then PD (jbase g) else TD i), TW'. split; cbn; [|done|done|done|rewrite !app_length; cbn; lia|].
  - unfold TW'. split; cbn; [done|done| | |].
    + intros i q t E. apply lookup_snoc in E as [E|[-> E]].
      * rewrite !decide_False by by eapply L. by apply A3.
      * injection E as -> ->. rewrite !decide_True by done. by apply thok_job.
    + intros i j p1 t1 q1 u1 x Ei Ej Hij Hw Hd. apply lookup_snoc in Ei as [Ei|[-> Ei]]; [|by rewrite decide_True in Hw].
      rewrite decide_False in Hw by by eapply L. apply lookup_snoc in Ej as [Ej|[-> Ej]].
      * rewrite decide_False in Hd by by eapply L. by eapply (A4 i j).
      * rewrite decide_True in Hd by done. by eapply (A5 i (jbase g)).
    + intros i j p1 t1 tr1 x Ei Ej Hw Hd. apply lookup_snoc in Ei as [Ei|[-> Ei]]; [|by rewrite decide_True in Hw].
      rewrite decide_False in Hw by by eapply L. by eapply (A5 i j).
  - intros i p t g' Ei Eg. apply lookup_snoc in Ei as [Ei|[-> Ei]].
    + rewrite lookup_app_l in Eg by (rewrite I5; by eapply lookup_lt_Some). destruct (I6 i p t g' Ei Eg) as (Hg' & tr' & Etr' & It). split; [done|]. exists tr'. split; [done|].
      eapply tinv_same; [exact It|done| |].
      * intros x Hx. split; [by eapply (base_ok _ _ _ _ _ _ _ _ I)|apply sameC_refl].
      * intros x Hx Ho. split; [apply sameC_refl|]. intros Ho'. by apply Ho, HO.
    + injection Ei as -> ->. rewrite <- I5, lookup_app_r in Eg by lia. rewrite Nat.sub_diag in Eg. injection Eg as <-. split; [done|]. exists tr. split; [done|].
      assert (HB : forall x, PD (jbase g) x -> ~ others (ths ++ [Some (jprog g tr, noTxn tr)]) TW' (length ths) x).
      2:{ assert (exists T, (serial js).2 !! jbase g = Some T) as [T ET]. { apply lookup_lt_is_Some. rewrite I2. by eapply lookup_lt_Some. }
          destruct (I4 _ _ _ Etr ET) as (b0 & Hb & Ht & Hd). split; [by apply tsim_start|]. eapply tend_start; eauto. apply serial_ranked. }
      intros x Hx Ho. apply HO in Ho as (j & q & u & Hj & Ej & Hw). by eapply (A5 j (jbase g)).
Qed.
Lemma inv_kill h ths pub js gs TD TW PD i : inv (mkC h ths pub) js gs TD TW PD -> inv (mkC h (<[i := None]> ths) pub) js gs TD TW PD.
Proof.
  intros I. pose proof I as [I1 I2 I3 I4 I5 I6]. split; cbn in *; [by apply minv_kill|done|done|done|by rewrite insert_length|].
  intros j p t g Ej Eg. apply th_insert in Ej as [[-> Ej]|[Hne Ej]]; [done|]. destruct (I6 j p t g Ej Eg) as (Hg' & tr' & Etr' & It). split; [done|]. exists tr'. split; [done|].
  eapply tinv_same; [exact It|done| |].
  - intros x Hx. split; [by eapply (base_ok _ _ _ _ _ _ _ _ I)|apply sameC_refl].
  - intros x Hx Ho. split; [apply sameC_refl|]. intros (k & q & u & Hk & Ek & Hw). apply Ho. apply th_insert in Ek as [[-> Ek]|[_ Ek]]; [done|]. by exists k, q, u.
Qed.
Lemma inv_watch h h' ths pub js gs TD TW PD : inv (mkC h ths pub) js gs TD TW PD -> chanOnly h h' -> inv (mkC h' ths pub) js gs TD TW PD.
Proof.
  intros I Hc. pose proof I as [I1 I2 I3 I4 I5 I6]. pose proof Hc as [Hn HS]. split; cbn in *; [by eapply minv_watch|done|done| |done|].
  - intros i tr T E1 E2. destruct (I4 i tr T E1 E2) as (b & Hb & Ht & Hd). exists b. split; [|done]. eapply hrel_left; [exact Hb|]. intros k x y Hxy.
    destruct (hr_lt _ _ _ Hb _ _ _ Hxy). split; [lia|apply HS].
  - intros j p t g Ej Eg. destruct (I6 j p t g Ej Eg) as (Hg' & tr' & Etr' & It). split; [done|]. exists tr'. split; [done|].
    eapply tinv_same; [exact It|lia| |].
    + intros x Hx. split; [by eapply (base_ok _ _ _ _ _ _ _ _ I)|apply HS].
    + intros x Hx Ho. split; [apply HS|done].
Qed.
Lemma inv_cmd h ths pub js gs TD TW PD i t B (c : cmd V B) k v s : inv (mkC h ths pub) js gs TD TW PD -> ths !! i = Some (Some (Do c k, t)) -> sem c (mkS h t) = (Ok v, s) ->
  exists TD' TW', inv (mkC (s_h s) (<[i := Some (k v, s_t s)]> ths) pub) js gs TD' TW' PD.
Proof.
  intros I Ei Es. pose proof I as [I1 I2 I3 I4 I5 I6]. destruct (minv_cmd _ _ _ _ _ _ _ _ _ _ _ _ _ I1 Ei Es) as (D2 & W2 & I1' & HW & Hn & HS).
  pose proof I1 as [A1 A2 A3 A4 A5]. cbn in *.
  set (TW' := fun j => if decide (j = i) then W2 else TW j) in *.
  assert (HP : forall j tr x, pub !! j = Some tr -> PD j x -> x < h_next h /\ sameC h (s_h s) x).
  { intros j tr x Ej Hx. assert (x < h_next h) by by eapply (base_ok _ _ _ _ _ _ _ _ I). split; [done|]. apply HS; [done|]. intros Hw. by eapply (A5 i j). }
  eexists _, TW'. split; cbn; [exact I1'|done|done| |by rewrite insert_length|].
  - intros j tr T E1 E2. destruct (I4 j tr T E1 E2) as (b & Hb & Ht & Hd). exists b. split; [|done]. eapply hrel_left; [exact Hb|]. intros k' x y Hxy.
    destruct (HP j tr x E1 (Hd _ _ _ Hxy)). split; [lia|done].
  - intros j p u g Ej Eg. apply th_insert in Ej as [[-> Ej]|[Hne Ej]].
    + injection Ej as -> ->. destruct (I6 i _ _ g Ei Eg) as (Hg' & tr' & Etr' & It). split; [done|]. exists tr'. split; [done|].
      destruct It as [It Ie].
      assert (HO : forall b' : corr, (forall k' x y, b' k' x y -> ~ others ths TW i x \/ h_next h <= x) -> forall k' x y, b' k' x y -> ~ others (<[i:=Some (k v, s_t s)]> ths) TW' i x).
      { intros b' Hb' k' x y Hxy (j & r & w & Hj & Ej & Hw). unfold TW' in Hw. rewrite decide_False in Hw by done. apply th_insert in Ej as [[-> Ej]|[_ Ej]]; [done|].
        assert (Ho : others ths TW i x) by by exists j, r, w. destruct (Hb' _ _ _ Hxy) as [Hn'|Hge]; [done|].
        pose proof (others_lt _ _ _ _ _ _ i x I Ho) as Hlt. cbn in Hlt. lia. }
      split.
      2:{ intros HN. apply Ie. intros (b & q & [h1 t1] & E1 & E2 & E3 & E4). apply HN. pose proof (prel_follow _ _ _ _ _ _ _ _ _ E3 E2) as F. cbn [follow s_h s_t] in F. destruct F as [F|[_ F]]; [done|].
          destruct (F v s Es) as (q' & s' & b' & F1 & F2 & F3 & F4 & F5 & F6). exists b', q', s'. split_and!; [by rewrite <- F1|done|done|].
          apply HO. intros k' x y Hxy. destruct (F5 _ _ _ Hxy) as [Hb'|Hge]; [left; by eapply E4|by right]. }
      intros H' T b0 Hb Ht Hd. destruct (It H' T b0) as [Z|(b & q & s' & E1 & E2 & E3 & E4)]; [|done|done|by left|].
      * eapply hrel_left; [exact Hb|]. intros k' x y Hxy. destruct (HP _ _ x Etr' (Hd _ _ _ Hxy)). split; [done|by apply sameC_sym].
      * destruct s' as [h1 t1]. pose proof (prel_follow _ _ _ _ _ _ _ _ _ E3 E2) as F. cbn [follow s_h s_t] in F. destruct F as [F|[_ F]]; [left; by rewrite E1|].
        destruct (F v s Es) as (q' & s' & b' & F1 & F2 & F3 & F4 & F5 & F6). right. exists b', q', s'. split_and!; [by rewrite E1|done|done|].
        apply HO. intros k' x y Hxy. destruct (F5 _ _ _ Hxy) as [Hb'|Hge]; [left; by eapply E4|by right].
    + destruct (I6 j p u g Ej Eg) as (Hg' & tr' & Etr' & It). split; [done|]. exists tr'. split; [done|]. eapply tinv_same; [exact It|done| |].
      * intros x Hx. by eapply HP.
      * intros x Hx Ho. split; [apply HS; [done|]; intros Hw; apply Ho; by exists i, (Do c k), t|].
        intros (j' & r & w & Hj & Ej' & Hw). apply Ho. unfold TW' in Hw. apply th_insert in Ej' as [[-> Ej']|[Hne' Ej']].
        -- rewrite decide_True in Hw by done. destruct (HW x Hw) as [Hw'|Hge]; [by exists i, (Do c k), t|lia].
        -- rewrite decide_False in Hw by done. by exists j', r, w.
Qed.
Lemma inv_done h ths pub js gs TD TW PD i t r g : inv (mkC h ths pub) js gs TD TW PD -> ths !! i = Some (Some (PRet (Ok r), t)) -> gs !! i = Some g ->
  exists PD', inv (mkC h (<[i := None]> ths) (pub ++ match r with Some tr => [tr] | None => [] end)) (js ++ [g]) gs TD TW PD'.
Proof.
  intros I Ei Eg. pose proof I as [I1 I2 I3 I4 I5 I6]. pose proof (minv_done _ _ _ _ _ _ _ _ _ I1 Ei) as I1'. cbn in *.
  destruct (inv_use _ _ _ _ _ _ _ _ _ _ I Ei Eg) as (T & b & q & s' & ET & Er & Hnf & SR & PR). cbn in SR.
  destruct (I6 i _ _ g Ei Eg) as (Hg & tr & Etr & _). destruct (jrun_ok (serial js) g I3) as (S1 & S2 & S3).
  destruct s' as [h1 t1]. pose proof (prel_follow _ _ _ _ _ _ _ _ _ PR SR) as F. cbn [follow s_h s_t] in F. destruct F as [F|(r' & s' & F1 & F2 & F3)]; [done|].
  assert (Ej : jrun (serial js) g = (s_h s', (serial js).2 ++ match r' with Some tr => [tr] | None => [] end)).
  { destruct g as [|i0 c|i0]; [done|..]; cbn [jrun]; rewrite ET, Er, F1; destruct r'; by rewrite ?app_nil_r. }
  eexists. split; [exact I1'|..]; rewrite ?serial_snoc, ?Ej; cbn [fst snd c_pub c_h c_th].
  - rewrite !app_length. destruct F3; cbn; lia.
  - by rewrite <- Ej.
  - rewrite Ej in S2, S3. cbn [fst] in S2, S3. intros j trj Tj E1 E2.
    assert (Hold : pub !! j = Some trj -> (serial js).2 !! j = Some Tj -> exists b, hrel b h (s_h s') /\ tR b trj Tj /\ forall k x y, b k x y -> (if decide (j = length pub) then TD i else PD j) x).
    { intros P1 P2. destruct (I4 _ _ _ P1 P2) as (b1 & Hb1 & Ht1 & Hd1). exists b1. split_and!; [|done|].
      - eapply hrel_same; [exact Hb1| |]; intros k x y Hxy; destruct (hr_lt _ _ _ Hb1 _ _ _ Hxy); (split; [lia|]); [apply sameC_refl|by apply S3].
      - rewrite decide_False by (apply lookup_lt_Some in P1; lia). done. }
    destruct F3 as [x y Hxy|].
    + apply lookup_snoc in E1 as [E1|[-> ->]].
      * rewrite lookup_app_l in E2 by (rewrite I2; by eapply lookup_lt_Some). by apply Hold.
      * rewrite <- I2, lookup_app_r in E2 by lia. rewrite Nat.sub_diag in E2. injection E2 as <-. destruct (mi_th _ _ _ _ I1 i _ _ Ei) as [Hgd Hpw]. specialize (Hpw _ (rely_refl _ Hgd)).
        cbn in Hpw. pose proof (good_pub _ _ _ _ _ Hgd Hpw) as Pb. exists (fun k u v => b k u v /\ TD i u). rewrite decide_True by done. split_and!.
        -- apply hrel_restrict; [by eapply srel_hrel|]. intros u n v Hu En Hv. destruct (pb_node _ _ _ Pb u n Hu En) as [_ Hq]. by apply Hq.
        -- destruct Hxy as (X1 & X2 & X3). split; [|done]. split; [done|apply Pb].
        -- by intros k u v [_ ?].
    + rewrite app_nil_r in E1, E2. by apply Hold.
  - by rewrite insert_length.
  - intros j p u g' Ej' Eg'. apply th_insert in Ej' as [[-> Ej']|[Hne Ej']]; [done|]. destruct (I6 j p u g' Ej' Eg') as (Hg' & tr' & Etr' & It). split; [done|]. exists tr'.
    split; [by apply lookup_app_l_Some|]. rewrite decide_False by (apply lookup_lt_Some in Etr'; lia). eapply tinv_same; [exact It|done| |].
    + intros x Hx. split; [by eapply (base_ok _ _ _ _ _ _ _ _ I)|apply sameC_refl].
    + intros x Hx Ho. split; [apply sameC_refl|]. intros (k & q' & w & Hk & Ek & Hw). apply Ho. apply th_insert in Ek as [[-> Ek]|[_ Ek]]; [done|]. by exists k, q', w.
Qed.
Lemma inv_new h h' ths pub js gs TD TW PD tr : inv (mkC h ths pub) js gs TD TW PD -> newTree h = (Ok tr, h') ->
  exists PD', inv (mkC h' ths (pub ++ [tr])) (js ++ [JNew]) gs TD TW PD'.
Proof.
  intros I E. pose proof I as [I1 I2 I3 I4 I5 I6]. destruct (minv_new _ _ _ _ _ _ _ _ I1 E) as (I1' & Hn & HS). cbn in *.
  destruct (jrun_ok (serial js) JNew I3) as (S1 & S2 & S3). set (H0 := (serial js).1) in *.
  assert (exists T H1, newTree H0 = (Ok T, H1) /\ jrun (serial js) JNew = (H1, (serial js).2 ++ [T])) as (T & H1 & EN & Ej).
  { cbn [jrun]. fold H0. destruct (newTree H0) as [o h2] eqn:E2. assert (exists T, o = Ok T) as [T ->]. { unfold newTree, bind, hallocL, hallocN, ret in E2. injection E2 as <- _. eauto. } eauto. }
  eexists. split; [exact I1'|..]; rewrite ?serial_snoc, ?Ej; cbn [fst snd c_pub c_h c_th].
  - rewrite !app_length. cbn. lia.
  - by rewrite <- Ej.
  - rewrite Ej in S2, S3. cbn [fst] in S2, S3. intros j trj Tj E1 E2. apply lookup_snoc in E1 as [E1|[-> ->]].
    + rewrite lookup_app_l in E2 by (rewrite I2; by eapply lookup_lt_Some). destruct (I4 _ _ _ E1 E2) as (b1 & Hb1 & Ht1 & Hd1). exists b1. split_and!; [|done|].
      * eapply hrel_same; [exact Hb1| |]; intros k x y Hxy; destruct (hr_lt _ _ _ Hb1 _ _ _ Hxy); (split; [unfold H0 in *; lia|]); [by apply HS|by apply S3].
      * rewrite decide_False by (apply lookup_lt_Some in E1; lia). done.
    + rewrite <- I2, lookup_app_r in E2 by lia. rewrite Nat.sub_diag in E2. injection E2 as <-. rewrite decide_True by done.
      exists (addc (addc (fun _ _ _ => False) false (h_next h) (h_next H0)) true (S (h_next h)) (S (h_next H0))).
      unfold newTree, bind, hallocL, hallocN, ret in E, EN. injection E as <- <-. injection EN as <- <-. split_and!.
      * split.
        -- apply addc_bij; [apply addc_bij; [by intros k|done]|]. intros k x y [[]|(-> & -> & ->)]. lia.
        -- intros x y [[[]|(? & _)]|(_ & -> & ->)]; [done|]. cbn. rewrite !lookup_insert. eexists _, _. split_and!; [done..|]. split; try done.
           ++ cbn. repeat constructor.
           ++ cbn. constructor. left. by right.
        -- intros x y [[[]|(_ & -> & ->)]|(? & _)]; [|done]. cbn. rewrite !lookup_insert. eexists _, _. split_and!; [done..|]. by split.
        -- intros k x y [[[]|(_ & -> & ->)]|(_ & -> & ->)]; cbn; lia.
      * split; [by right|done].
      * intros k x y [[[]|(_ & -> & ->)]|(_ & -> & ->)]; [by left|by right].
  - done.
  - intros j p u g' Ej' Eg'. destruct (I6 j p u g' Ej' Eg') as (Hg' & tr' & Etr' & It). split; [done|]. exists tr'.
    split; [by apply lookup_app_l_Some|]. rewrite decide_False by (apply lookup_lt_Some in Etr'; lia). eapply tinv_same; [exact It|done| |].
    + intros x Hx. assert (x < h_next h) by by eapply (base_ok _ _ _ _ _ _ _ _ I). split; [done|by apply HS].
    + intros x Hx Ho. split; [by apply HS|done].
Qed.
Lemma inv_recorded c js gs : recorded c js gs -> exists TD TW PD, inv c js gs TD TW PD.
Proof.
  intros R. induction R as [|h h' ths pub tr js gs R IH E|h ths pub i tr c js gs R IH E|h ths pub i tr js gs R IH E|h ths pub i t B c k b s js gs R IH Ei Es|h ths pub i t B c k s js gs R IH Ei Es|h ths pub i t r g js gs R IH Ei Eg|h ths pub i t o js gs R IH Ei Ho|h h' ths pub js gs R IH Hc].
  - destruct (@minv_0 V) as (TD & TW & PD & I). exists TD, TW, PD. split; try done.
  - destruct IH as (TD & TW & PD & I). destruct (inv_new _ _ _ _ _ _ _ _ _ _ I E) as [PD' I']. by exists TD, TW, PD'.
  - destruct IH as (TD & TW & PD & I). destruct (inv_spawn _ _ _ _ _ _ _ _ (JTxn i c) tr I) as (TD' & TW' & I'); [done|done|]. by exists TD', TW', PD.
  - destruct IH as (TD & TW & PD & I). destruct (inv_spawn _ _ _ _ _ _ _ _ (JClone i) tr I) as (TD' & TW' & I'); [done|done|]. by exists TD', TW', PD.
  - destruct IH as (TD & TW & PD & I). destruct (inv_cmd _ _ _ _ _ _ _ _ _ _ _ _ _ _ _ I Ei Es) as (TD' & TW' & I'). by exists TD', TW', PD.
  - destruct IH as (TD & TW & PD & I). rewrite (sem_panic c (mkS h t) s (or_introl Es)). exists TD, TW, PD. by apply inv_kill.
  - destruct IH as (TD & TW & PD & I). destruct (inv_done _ _ _ _ _ _ _ _ _ _ _ _ I Ei Eg) as [PD' I']. by exists TD, TW, PD'.
  - destruct IH as (TD & TW & PD & I). exists TD, TW, PD. by apply inv_kill.
  - destruct IH as (TD & TW & PD & I). exists TD, TW, PD. by eapply inv_watch.
Qed.
(** No goroutine runs out of the fuel that the model gives to searches. *)
Lemma inv_ends c js gs TD TW PD i t : inv c js gs TD TW PD -> c_th c !! i = Some (Some (PRet NoFuel, t)) -> False.
Proof.
  intros I Ei. destruct (lookup_lt_is_Some_2 gs i) as [g Eg]. { rewrite (iv_gs _ _ _ _ _ _ I). by eapply lookup_lt_Some. }
  destruct (iv_th _ _ _ _ _ _ I i _ _ g Ei Eg) as (_ & tr & _ & _ & Ie). apply Ie. intros (b & q & [h1 t1] & E1 & E2 & E3 & E4).
  pose proof (prel_follow _ _ _ _ _ _ _ _ _ E3 E2) as F. cbn [follow s_h s_t] in F. by destruct F.
Qed.
End Serial.
