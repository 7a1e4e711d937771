(** Every program of Prog.v does the same at corresponding addresses. *)
From Verif Require Export NodeRel Machine.
From stdpp Require Import list.
Local Open Scope nat_scope.

Ltac up1 K b := repeat match goal with
  | Hx : b _ _ _ |- _ => apply (proj1 K) in Hx
  | Hx : nrel b _ _ |- _ => apply (nrel_le _ _ _ _ (proj1 K)) in Hx
  | Hx : trel b _ _ |- _ => apply (trel_le _ _ _ _ (proj1 K)) in Hx
  | Hx : rR b _ _ |- _ => apply (rR_le _ _ _ _ (proj1 K)) in Hx
  | Hx : oR (b _) _ _ |- _ => apply (oR_le _ _ _ _ _ (proj1 K)) in Hx
  | Hx : Forall2 (oR (b true)) _ _ |- _ => apply (F2_le _ _ _ _ (proj1 K)) in Hx
  | Hx : bij b |- _ => clear Hx
  end.
Ltac up K := match type of K with kext ?b ?b' => up1 K b; pose proof (proj2 K) as ?Hb; clear K; try clear b end.

Section ProgRel.
Context {V : Type} `{GoZero V}.
Variable fo : bool.
Notation prel := (prel (V:=V) fo).
Notation crel := (crel (V:=V) fo).
Notation corr := (bool -> addr -> addr -> Prop).
Implicit Types b : corr.
Notation anyR := (fun (_ : corr) _ _ => True).
Notation eqR := (fun (_ : corr) x y => x = y).
Notation nR := (fun (b : corr) => b true).
Notation lR := (fun (b : corr) => b false).

Lemma pr_pret {A} (R : corr -> A -> A -> Prop) b a a' : R b a a' -> prel R b (pret a) (pret a'). Proof. intros. by apply pr_ret. Qed.
Lemma pr_ppanic {A} (R : corr -> A -> A -> Prop) b : prel R b ppanic ppanic. Proof. apply pr_panic. Qed.
Lemma pr_lift {A} (R : corr -> A -> A -> Prop) b o o' : orel (R b) o o' -> prel R b (plift o) (plift o').
Proof. intros []; [by apply pr_ret|apply pr_panic|apply pr_nfR]. Qed.
Lemma pr_lifteq {A} b (o : outcome A) : prel eqR b (plift o) (plift o).
Proof. apply pr_lift, orel_eq. Qed.
Lemma pr_one {B} (c c' : cmd V B) S b : crel b B c c' S -> prel S b (pdo c) (pdo c').
Proof. intros Hc. eapply pr_do; [exact Hc|]. intros. by apply pr_pret. Qed.
Lemma pr_loadN b x y : b true x y -> prel nrel b (ploadN x : prog V _) (ploadN y). Proof. intros. by apply pr_one, cr_LoadN. Qed.
Lemma pr_loadL b x y : b false x y -> prel (fun _ => lrel) b (ploadL x : prog V _) (ploadL y). Proof. intros. by apply pr_one, cr_LoadL. Qed.
Lemma pr_storeN b x y n n' : b true x y -> nrel b n n' -> prel anyR b (pstoreN x n : prog V _) (pstoreN y n'). Proof. intros. by apply pr_one, cr_StoreN. Qed.
Lemma pr_storeL b x y (n n' : lnode V) : b false x y -> lrel n n' -> prel anyR b (pstoreL x n : prog V _) (pstoreL y n'). Proof. intros. by apply pr_one, cr_StoreL. Qed.
Lemma pr_allocN b n n' : nrel b n n' -> prel nR b (pallocN n : prog V _) (pallocN n'). Proof. intros. by apply pr_one, cr_AllocN. Qed.
Lemma pr_allocL b (n n' : lnode V) : lrel n n' -> prel lR b (pallocL n) (pallocL n'). Proof. intros. by apply pr_one, cr_AllocL. Qed.
Lemma pr_getT b : prel trel b (pgetT : prog V _) pgetT. Proof. by apply pr_one, cr_GetT. Qed.
Lemma pr_putT b t t' : trel b t t' -> prel anyR b (pputT t : prog V _) (pputT t'). Proof. intros. by apply pr_one, cr_PutT. Qed.
Lemma pr_liveN b x y : b true x y -> prel eqR b (pliveN x : prog V _) (pliveN y). Proof. intros. eapply pr_do; [by apply cr_LiveN|]. intros ? ? ? _ [-> ->]. by apply pr_pret. Qed.
Lemma pr_liveL b x y : b false x y -> prel eqR b (pliveL x : prog V _) (pliveL y). Proof. intros. eapply pr_do; [by apply cr_LiveL|]. intros ? ? ? _ [-> ->]. by apply pr_pret. Qed.
Definition fle (f f' : nat) : Prop := fo = true -> f' <= f.
Lemma fle_S f f' : fle (S f) (S f') -> fle f f'. Proof. intros Hf E. specialize (Hf E). lia. Qed.
Lemma fle_0 {A} (R : corr -> A -> A -> Prop) b f q : fle 0 f -> (f = 0 -> q = PRet NoFuel) -> prel R b (PRet NoFuel) q.
Proof. intros Hf Hq. destruct (Bool.bool_dec fo true) as [E|E]; [|apply pr_nfL; by destruct fo]. rewrite Hq by (specialize (Hf E); lia). apply pr_nfR. Qed.
Lemma pr_fuel b : prel (fun _ => fle) b (pfuel : prog V _) pfuel. Proof. by apply pr_one, cr_Next. Qed.
Lemma pr_seq {A B} (R : corr -> A -> A -> Prop) (S : corr -> B -> B -> Prop) b p q f g : bij b ->
  prel R b p q -> (forall b' x x', kext b b' -> R b' x x' -> prel S b' (f x) (g x')) -> prel S b (pbind p f) (pbind q g).
Proof. apply prel_bind. Qed.

(** ** Tactics *)
Ltac nsv := first [assumption | constructor; nsv | apply nrel_set_id; nsv | apply nrel_set_plen; nsv | apply nrel_set_nch; nsv | apply nrel_set_partial; nsv | apply nrel_set_keys; nsv
  | apply nrel_set_ch; nsv | apply nrel_set_leaf; nsv | apply nrel_set_children; nsv | apply nrel_zero
  | apply lrel_set_id; nsv | apply lrel_set_val; nsv | apply lrel_set_key; nsv | apply lrel_set_ch; nsv
  | by split | apply F2_copy; nsv | apply Forall2_take; nsv | apply F2_clear; nsv
  | apply nr_leaf; nsv | apply nr_children; nsv | reflexivity].
Ltac pnext := let K := fresh "K" in intros ? ? ? K; cbv beta; intros ?; up K.
Ltac pb L := eapply pr_seq; [assumption|eapply L; nsv|pnext].

Lemma pr_getMutateChN b x y : bij b -> b true x y -> prel anyR b (pgetMutateChN x : prog V _) (pgetMutateChN y).
Proof.
  intros Hb Hx. unfold pgetMutateChN. pb pr_loadN. destruct (n_ch x0), (n_ch x').
  - by apply pr_pret.
  - apply pr_R; [done|]. intros c1. apply pr_R; [cbn; eauto|]. intros c2. by apply pr_pret.
  - apply pr_L; [done|]. intros c1. apply pr_L; [cbn; eauto|]. intros c2. by apply pr_pret.
  - apply pr_L; [done|]. intros c1. apply pr_L; [cbn; eauto|]. intros c2. apply pr_R; [done|]. intros c3. apply pr_R; [cbn; eauto|]. intros c4. by apply pr_pret.
Qed.
Lemma pr_getMutateChL b x y : bij b -> b false x y -> prel anyR b (pgetMutateChL x : prog V _) (pgetMutateChL y).
Proof.
  intros Hb Hx. unfold pgetMutateChL. pb pr_loadL. destruct (l_ch x0), (l_ch x').
  - by apply pr_pret.
  - apply pr_R; [done|]. intros c1. apply pr_R; [cbn; eauto|]. intros c2. by apply pr_pret.
  - apply pr_L; [done|]. intros c1. apply pr_L; [cbn; eauto|]. intros c2. by apply pr_pret.
  - apply pr_L; [done|]. intros c1. apply pr_L; [cbn; eauto|]. intros c2. apply pr_R; [done|]. intros c3. apply pr_R; [cbn; eauto|]. intros c4. by apply pr_pret.
Qed.
Lemma pr_makeChan b : prel anyR b (pmakeChan : prog V _) pmakeChan.
Proof. apply pr_L; [done|]. intros c. apply pr_R; [done|]. intros c'. by apply pr_pret. Qed.
Lemma pr_setMutateChN b x y c c' : b true x y -> prel anyR b (psetMutateChN x c : prog V _) (psetMutateChN y c').
Proof. intros Hx. apply pr_L; [cbn; eauto|]. intros u. apply pr_R; [cbn; eauto|]. intros u'. by apply pr_pret. Qed.
Lemma pr_setMutateChL b x y c c' : b false x y -> prel anyR b (psetMutateChL x c : prog V _) (psetMutateChL y c').
Proof. intros Hx. apply pr_L; [cbn; eauto|]. intros u. apply pr_R; [cbn; eauto|]. intros u'. by apply pr_pret. Qed.
Lemma pr_cloneN b x y w : bij b -> b true x y -> prel nR b (pcloneN x w : prog V _) (pcloneN y w).
Proof.
  intros Hb Hx. unfold pcloneN. eapply (pr_seq anyR); [done| |pnext].
  { destruct w; [|by apply pr_pret]. pb pr_getMutateChN. by apply pr_pret. }
  pb pr_loadN. apply pr_allocN. match goal with Hn : nrel _ _ _ |- _ => rewrite (nr_partial _ _ _ Hn) end. nsv.
Qed.
Lemma pr_cloneL b x y w : bij b -> b false x y -> prel lR b (pcloneL x w : prog V _) (pcloneL y w).
Proof.
  intros Hb Hx. unfold pcloneL. eapply (pr_seq anyR); [done| |pnext].
  { destruct w; [|by apply pr_pret]. pb pr_getMutateChL. by apply pr_pret. }
  pb pr_loadL. apply pr_allocL. nsv.
Qed.
Lemma oRd b k o o' : oR (b k) o o' -> (exists x y, o = Some x /\ o' = Some y /\ b k x y) \/ (o = None /\ o' = None).
Proof. intros [x y|]; eauto 6. Qed.
Lemma pr_minimum f : forall b f' o o', fle f f' -> bij b -> oR (b true) o o' -> prel (fun b => oR (b false)) b (pminimum f o : prog V _) (pminimum f' o').
Proof.
  induction f as [|f IH]; intros b f' o o' Hff Hb Ho; [apply fle_0 with f'; [done|by intros ->]|]. destruct f' as [|f']; [apply pr_nfR|]. apply fle_S in Hff. cbn [pminimum]. destruct Ho as [x y Hx|]; [|apply pr_pret; constructor].
  pb pr_loadN. rename x0 into n, x' into n'. match goal with Hn : nrel _ _ _ |- _ => rewrite (isLeafN_rel _ _ _ Hn); pose proof (nr_leaf _ _ _ Hn) as Hl; pose proof (minChild_rel _ _ _ Hn) end.
  destruct (isLeafN n'); [by apply pr_pret|]. destruct Hl; [apply pr_pret; by constructor|].
  eapply (pr_seq (fun b => oR (b true))); [done|by apply pr_lift|pnext]. match goal with Ho : oR _ _ _ |- _ => destruct Ho end; [|apply pr_pret; constructor]. apply IH; [done|done|by constructor].
Qed.
Lemma pr_mismatch b x y n n' key d : bij b -> b true x y -> nrel b n n' -> prel eqR b (pprefixMismatch x n key d : prog V _) (pprefixMismatch y n' key d).
Proof.
  intros Hb Hx Hn. unfold pprefixMismatch. cbv zeta. rewrite (nr_plen _ _ _ Hn), (nr_partial _ _ _ Hn). pb @pr_lifteq. subst.
  destruct (_ <? _); [by apply pr_pret|]. destruct (_ <? _); [|by apply pr_pret]. pb pr_fuel. pb pr_minimum.
  match goal with Ho : oR _ _ _ |- _ => destruct Ho end; [|by apply pr_pret]. pb pr_loadL. match goal with Hl : lrel _ _ |- _ => rewrite (lr_key _ _ Hl) end. apply pr_lifteq.
Qed.
Lemma trel_set_max b t t' m : trel b t t' -> trel b (set_t_max t m) (set_t_max t' m). Proof. intros []; by split. Qed.
Lemma trel_set_chs b t t' m m' : trel b t t' -> trel b (set_t_chs t m) (set_t_chs t' m'). Proof. intros []; by split. Qed.
Lemma pr_nextId b : bij b -> prel eqR b (pnextId : prog V _) pnextId.
Proof.
  intros Hb. unfold pnextId. pb pr_getT. match goal with Ht : trel _ _ _ |- _ => rewrite (tr_max _ _ _ Ht) end. eapply pr_seq; [done|by apply pr_putT, trel_set_max|pnext]. by apply pr_pret.
Qed.
Lemma pr_addTracked b c c' : bij b -> prel anyR b (paddTracked c : prog V _) (paddTracked c').
Proof. intros Hb. unfold paddTracked. pb pr_getT. by apply pr_putT, trel_set_chs. Qed.
Lemma pr_trackN b x y : bij b -> b true x y -> prel anyR b (ptrackN x : prog V _) (ptrackN y).
Proof.
  intros Hb Hx. unfold ptrackN. pb pr_getT. pb pr_liveN. subst. match goal with Ht : trel _ _ _ |- _ => rewrite (tr_track _ _ _ Ht) end.
  destruct (_ && _); [|by apply pr_pret]. pb pr_getMutateChN. pb pr_addTracked. pb pr_makeChan. by apply pr_setMutateChN.
Qed.
Lemma pr_trackL b x y : bij b -> b false x y -> prel anyR b (ptrackL x : prog V _) (ptrackL y).
Proof.
  intros Hb Hx. unfold ptrackL. pb pr_getT. pb pr_liveL. subst. match goal with Ht : trel _ _ _ |- _ => rewrite (tr_track _ _ _ Ht) end.
  destruct (_ && _); [|by apply pr_pret]. pb pr_getMutateChL. pb pr_addTracked. pb pr_makeChan. by apply pr_setMutateChL.
Qed.
Lemma pr_trackOptL b x y : bij b -> oR (b false) x y -> prel anyR b (ptrackOptL x : prog V _) (ptrackOptL y).
Proof. intros Hb []; [by apply pr_trackL|by apply pr_pret]. Qed.
Lemma pr_trackAllN l : forall b l', bij b -> Forall2 (b true) l l' -> prel anyR b (ptrackAllN l : prog V _) (ptrackAllN l').
Proof.
  induction l as [|x l IH]; intros b l' Hb Hl; [apply Forall2_nil_inv_l in Hl as ->; by apply pr_pret|]. apply Forall2_cons_inv_l in Hl as (y & l2 & Hx & Hl & ->). cbn [ptrackAllN].
  eapply pr_seq; [done|by eapply pr_trackN|]. intros b' _ _ K _. apply IH; [apply K|]. eapply Forall2_impl; [exact Hl|]. intros u v. apply K.
Qed.
Ltac fields := repeat match goal with
  | Hn : nrel _ ?n ?n' |- context [n_kind ?n] => rewrite (nr_kind _ n n' Hn)
  | Hn : nrel _ ?n ?n' |- context [n_id ?n] => rewrite (nr_id _ n n' Hn)
  | Hn : nrel _ ?n ?n' |- context [n_plen ?n] => rewrite (nr_plen _ n n' Hn)
  | Hn : nrel _ ?n ?n' |- context [n_nch ?n] => rewrite (nr_nch _ n n' Hn)
  | Hn : nrel _ ?n ?n' |- context [n_partial ?n] => rewrite (nr_partial _ n n' Hn)
  | Hn : nrel _ ?n ?n' |- context [n_keys ?n] => rewrite (nr_keys _ n n' Hn)
  | Hn : nrel _ ?n ?n' |- context [isLeafN ?n] => rewrite (isLeafN_rel _ n n' Hn)
  | Hl : lrel ?l ?l' |- context [l_id ?l] => rewrite (lr_id l l' Hl)
  | Hl : lrel ?l ?l' |- context [l_val ?l] => rewrite (lr_val l l' Hl)
  | Hl : lrel ?l ?l' |- context [l_key ?l] => rewrite (lr_key l l' Hl)
  | Ht : trel _ ?t ?t' |- context [t_track ?t] => rewrite (tr_track _ t t' Ht)
  | Ht : trel _ ?t ?t' |- context [t_oldmax ?t] => rewrite (tr_oldmax _ t t' Ht)
  | Ht : trel _ ?t ?t' |- context [t_max ?t] => rewrite (tr_max _ t t' Ht)
  | Ht : trel _ ?t ?t' |- context [t_size ?t] => rewrite (tr_size _ t t' Ht)
  | Ht : trel _ ?t ?t' |- context [t_tsize ?t] => rewrite (tr_tsize _ t t' Ht)
  end.
Lemma pr_writeNode b x y w : bij b -> b true x y -> prel nR b (pwriteNode x w : prog V _) (pwriteNode y w).
Proof.
  intros Hb Hx. unfold pwriteNode. eapply (pr_seq anyR); [done| |pnext].
  { destruct w; [|by apply pr_pret]. pb pr_trackN. pb pr_loadN. apply pr_trackOptL; nsv. }
  pb pr_loadN. pb pr_getT. fields. destruct (_ <? _); [by apply pr_pret|]. pb pr_cloneN. pb pr_nextId. subst. pb pr_loadN. pb pr_storeN. by apply pr_pret.
Qed.
Lemma pr_writeLeaf b x y w : bij b -> b false x y -> prel lR b (pwriteLeaf x w : prog V _) (pwriteLeaf y w).
Proof.
  intros Hb Hx. unfold pwriteLeaf. eapply (pr_seq anyR); [done| |pnext].
  { destruct w; [|by apply pr_pret]. by apply pr_trackL. }
  pb pr_loadL. pb pr_getT. fields. destruct (_ <? _); [by apply pr_pret|]. pb pr_cloneL. pb pr_nextId. subst. pb pr_loadL. pb pr_storeL. by apply pr_pret.
Qed.
Lemma pr_allocNode b k : bij b -> prel nR b (pallocNode k : prog V _) (pallocNode k).
Proof. intros Hb. unfold pallocNode. pb pr_nextId. subst. apply pr_allocN. nsv. Qed.
Lemma pr_allocLeaf b : bij b -> prel lR b (pallocLeaf : prog V _) pallocLeaf.
Proof. intros Hb. unfold pallocLeaf. pb pr_nextId. subst. by apply pr_allocL. Qed.
Lemma pr_updN b x y f g : bij b -> b true x y -> (forall b' n n', kext b b' -> nrel b' n n' -> orel (nrel b') (f n) (g n')) -> prel anyR b (pupdN x f : prog V _) (pupdN y g).
Proof.
  intros Hb Hx Hf. unfold pupdN. eapply pr_seq; [done|by apply pr_loadN|]. intros b' n n' K Hn. eapply (pr_seq nrel); [apply K|apply pr_lift; by apply Hf|].
  intros b2 m m' K2 Hm. apply pr_storeN; [|done]. by apply K2, K.
Qed.
Lemma pr_setNodeLeaf b x y o o' : bij b -> b true x y -> oR (b false) o o' -> prel anyR b (psetNodeLeaf x o : prog V _) (psetNodeLeaf y o').
Proof. intros Hb Hx Ho. apply pr_updN; [done|done|]. intros b' n n' K Hn. up K. constructor. nsv. Qed.
Lemma pr_setChild b x y i o o' : bij b -> b true x y -> oR (b true) o o' -> prel anyR b (psetChild x i o : prog V _) (psetChild y i o').
Proof. intros Hb Hx Ho. apply pr_updN; [done|done|]. intros b' n n' K Hn. up K. by apply setChildN_rel. Qed.
Lemma pr_setKV b x y k (v : V) : bij b -> b false x y -> prel anyR b (psetKV x k v) (psetKV y k v).
Proof. intros Hb Hx. unfold psetKV. pb pr_loadL. apply pr_storeL; nsv. Qed.
Ltac pupd := eapply pr_seq; [assumption|apply pr_updN; [assumption|assumption|let K := fresh "K" in intros ? ? ? K ?; up K; fields]|pnext].
Lemma pr_makeLeaf b k (v : V) : bij b -> prel nR b (pmakeLeaf k v) (pmakeLeaf k v).
Proof.
  intros Hb. unfold pmakeLeaf. pb pr_allocLeaf. pb pr_nextId. subst. pb pr_loadL. pb pr_storeL. pb pr_allocNode. pb pr_setNodeLeaf. pb pr_nextId. subst.
  pupd; [constructor; nsv|]. by apply pr_pret.
Qed.
Lemma pr_moveLeaf b x y o o' : bij b -> b true x y -> oR (b false) o o' -> prel anyR b (pmoveLeaf x o : prog V _) (pmoveLeaf y o').
Proof. intros Hb Hx []; cbn [pmoveLeaf]; [|by apply pr_pret]. pb pr_writeLeaf. apply pr_setNodeLeaf; nsv. Qed.
Lemma pr_addChild256 b x y c u v : bij b -> b true x y -> b true u v -> prel nR b (paddChild256 x c u : prog V _) (paddChild256 y c v).
Proof. intros Hb Hx Hu. unfold paddChild256. pupd; [by apply insert256_rel|]. by apply pr_pret. Qed.
Lemma pr_addChild48 b x y c u v : bij b -> b true x y -> b true u v -> prel nR b (paddChild48 x c u : prog V _) (paddChild48 y c v).
Proof.
  intros Hb Hx Hu. unfold paddChild48. pb pr_loadN. fields. destruct (_ <? _).
  - pupd; [by apply insert48_rel|]. by apply pr_pret.
  - pb pr_allocNode. pb pr_moveLeaf. pupd; [by apply fill256_rel|]. pupd; [by apply copyHeader_rel|]. by apply pr_addChild256.
Qed.
Lemma pr_addChild16 b x y c u v : bij b -> b true x y -> b true u v -> prel nR b (paddChild16 x c u : prog V _) (paddChild16 y c v).
Proof.
  intros Hb Hx Hu. unfold paddChild16. pb pr_loadN. fields. destruct (_ <? _).
  - pupd; [by apply insertSorted_rel|]. by apply pr_pret.
  - pb pr_allocNode. pb pr_moveLeaf. pupd; [constructor; nsv|]. pupd; [by apply fill48_rel|]. pupd; [by apply copyHeader_rel|]. by apply pr_addChild48.
Qed.
Lemma pr_addChild4 b x y c u v : bij b -> b true x y -> b true u v -> prel nR b (paddChild4 x c u : prog V _) (paddChild4 y c v).
Proof.
  intros Hb Hx Hu. unfold paddChild4. pb pr_loadN. fields. destruct (_ <? _).
  - pupd; [by apply insertSorted_rel|]. by apply pr_pret.
  - pb pr_allocNode. pb pr_moveLeaf. pupd; [constructor; nsv|]. pupd; [constructor; nsv|]. pupd; [by apply copyHeader_rel|]. by apply pr_addChild16.
Qed.
Lemma pr_addChild b x y c u v : bij b -> b true x y -> b true u v -> prel nR b (paddChild x c u : prog V _) (paddChild y c v).
Proof.
  intros Hb Hx Hu. unfold paddChild. pb pr_loadN. fields. destruct (n_kind _); [by apply pr_addChild4|by apply pr_addChild16|by apply pr_addChild48|by apply pr_addChild256].
Qed.
Lemma pr_removeSorted b n n' c : nrel b n n' -> prel rsrel b (plift (removeSorted n c) : prog V _) (plift (removeSorted n' c)).
Proof. intros. by apply pr_lift, removeSorted_rel. Qed.
Lemma oR_none b o o' : oR (b false) o o' -> (match o with None => true | Some _ => false end) = (match o' with None => true | Some _ => false end).
Proof. by intros []. Qed.
Lemma pr_removeChild4 b x y c : bij b -> b true x y -> prel nR b (premoveChild4 x c : prog V _) (premoveChild4 y c).
Proof.
  intros Hb Hx. unfold premoveChild4. pb pr_loadN. eapply pr_seq; [done|by apply pr_removeSorted|]. intros b1 [s n1] [s' n1'] K [Hs Hn1]. cbn in Hs, Hn1. up K.
  eapply pr_seq; [done|by apply pr_trackAllN|pnext]. pb pr_loadN. pb pr_storeN. pb pr_loadN. fields.
  match goal with Hn : nrel _ ?n ?n' |- context [n_leaf ?n] => rewrite (oR_none _ _ _ (nr_leaf _ n n' Hn)); pose proof (getChild_rel _ n n' 0 Hn) end.
  destruct (_ && _); [|by apply pr_pret]. eapply (pr_seq (fun b => oR (b true))); [done|by apply pr_lift|pnext].
  match goal with Ho : oR _ _ _ |- _ => destruct Ho end; [|apply pr_ppanic]. pb pr_writeNode. pb pr_loadN. pb pr_loadN.
  eapply (pr_seq (fun b x y => x.1 = y.1 /\ nrel b x.2 y.2)); [done|apply pr_lift; by apply mergePrefix_rel|]. intros b2 [p1 m1] [p1' m1'] K [Hp Hm1]. cbn in Hp, Hm1. subst. up K.
  pb pr_storeN. pb pr_storeN. pb pr_trackN. by apply pr_pret.
Qed.
Lemma pr_removeChild16 b x y c : bij b -> b true x y -> prel nR b (premoveChild16 x c : prog V _) (premoveChild16 y c).
Proof.
  intros Hb Hx. unfold premoveChild16. pb pr_loadN. eapply pr_seq; [done|by apply pr_removeSorted|]. intros b1 [s n1] [s' n1'] K [Hs Hn1]. cbn in Hs, Hn1. up K.
  eapply pr_seq; [done|by apply pr_trackAllN|pnext]. pb pr_loadN. pb pr_storeN. pb pr_loadN. fields. destruct (_ =? _); [|by apply pr_pret].
  pb pr_trackN. pb pr_allocNode. pupd; [by apply copyHeader_rel|]. pupd; [constructor; nsv|]. pupd; [constructor; nsv|]. pb pr_moveLeaf. pb pr_setNodeLeaf. by apply pr_pret.
Qed.
Lemma pr_removeChild48 b x y c : bij b -> b true x y -> prel nR b (premoveChild48 x c : prog V _) (premoveChild48 y c).
Proof.
  intros Hb Hx. unfold premoveChild48. pb pr_loadN. match goal with Hn : nrel _ _ _ |- _ => rewrite (getKeyAtIdx_rel _ _ _ c Hn) end. pb @pr_lifteq. subst.
  pupd; [by apply setKeyAtIdx_rel|]. eapply (pr_seq (fun b => oR (b true))); [done|by apply pr_lift, getChild_rel|pnext].
  eapply (pr_seq anyR); [done| |pnext].
  { match goal with Ho : oR _ _ _ |- _ => destruct Ho end; [by apply pr_trackN|by apply pr_pret]. }
  pupd; [apply setChildN_rel; nsv|]. pupd; [constructor; nsv|]. pb pr_loadN. fields. destruct (_ =? _); [|by apply pr_pret].
  pb pr_allocNode. pb pr_trackN. pupd; [by apply copyHeader_rel|]. pb pr_moveLeaf. pupd; [by apply fill16_rel|]. by apply pr_pret.
Qed.
Lemma pr_removeChild256 b x y c : bij b -> b true x y -> prel nR b (premoveChild256 x c : prog V _) (premoveChild256 y c).
Proof.
  intros Hb Hx. unfold premoveChild256. pupd; [apply setChildN_rel; nsv|]. pupd; [constructor; nsv|]. pb pr_loadN. fields. destruct (_ =? _); [|by apply pr_pret].
  pb pr_allocNode. pupd; [by apply copyHeader_rel|]. pb pr_trackN. pb pr_moveLeaf. pupd; [by apply fill48from256_rel|]. by apply pr_pret.
Qed.
Lemma pr_removeChild b x y c : bij b -> b true x y -> prel nR b (premoveChild x c : prog V _) (premoveChild y c).
Proof.
  intros Hb Hx. unfold premoveChild. pb pr_loadN. fields. destruct (n_kind _); [by apply pr_removeChild4|by apply pr_removeChild16|by apply pr_removeChild48|by apply pr_removeChild256].
Qed.
Lemma pr_byteAt b k i : prel eqR b (pbyteAt k i : prog V _) (pbyteAt k i).
Proof. unfold pbyteAt. destruct (k !! i); [by apply pr_pret|apply pr_ppanic]. Qed.
Lemma pr_copyPartial b x y s : bij b -> b true x y -> prel anyR b (pcopyPartial x s : prog V _) (pcopyPartial y s).
Proof. intros Hb Hx. apply pr_updN; [done|done|]. intros b' n n' K Hn. fields. constructor. nsv. Qed.

(** ** Insert *)
Definition insR b (x y : addr * V * bool * bool) : Prop := b true x.1.1.1 y.1.1.1 /\ x.1.1.2 = y.1.1.2 /\ x.1.2 = y.1.2 /\ x.2 = y.2.
Lemma insR_intro b x y v m o : b true x y -> insR b (x, v, m, o) (y, v, m, o). Proof. done. Qed.
Lemma eqb_rel b k x y x' y' : bij b -> b k x y -> b k x' y' -> Nat.eqb x x' = Nat.eqb y y'.
Proof. intros Hb A B. destruct (Nat.eqb_spec x x') as [E|E], (Nat.eqb_spec y y') as [E'|E']; try done; [|exfalso]; by (destruct E'; apply (Hb _ _ _ _ _ A B)) || (destruct E; apply (Hb _ _ _ _ _ A B)). Qed.
Lemma has_prefix_leaf b (n n' : inode) (key : bytes) : bij b -> nrel b n n' ->
  prel eqR b (match n_leaf n with
             | Some nla => pbind (ploadL nla : prog V _) (fun nl => pret (negb (Nat.eqb (length (l_key nl)) 0) && has_prefix (getKey (l_key nl)) (getKey key)))
             | None => pret false end)
            (match n_leaf n' with
             | Some nla => pbind (ploadL nla : prog V _) (fun nl => pret (negb (Nat.eqb (length (l_key nl)) 0) && has_prefix (getKey (l_key nl)) (getKey key)))
             | None => pret false end).
Proof. intros Hb Hn. destruct (nr_leaf _ _ _ Hn); [|by apply pr_pret]. pb pr_loadL. fields. by apply pr_pret. Qed.

Lemma pr_insert_both f : (forall b x y key v d, bij b -> b true x y -> prel insR b (precursiveInsert f x key v d) (precursiveInsert f y key v d)) /\
  (forall b x y key v d, bij b -> b true x y -> prel insR b (pinsertInner f x key v d) (pinsertInner f y key v d)).
Proof.
  induction f as [|f [IH1 IH2]]; (split; [intros b x y key v d Hb Hx|intros b x y key v d Hb Hx]); [apply pr_nfR|apply pr_nfR| |].
  - cbn [precursiveInsert]. pb pr_getT. fields. destruct (_ =? _)%N.
    { pb pr_writeNode. pb pr_allocLeaf. pb pr_setKV. pb pr_setNodeLeaf. by apply pr_pret. }
    pb pr_loadN. match goal with Hn : nrel _ _ _ |- _ => pose proof (nr_leaf _ _ _ Hn) as Hl end. destruct Hl as [l l' Hl|]; [|by apply IH2].
    pb pr_loadL. fields. destruct (isLeafN _).
    + destruct (_ && _).
      { pb pr_writeNode. pb pr_allocLeaf. pb pr_setKV. pb pr_setNodeLeaf. by apply pr_pret. }
      pb pr_makeLeaf. pb pr_loadN. pb pr_trackN. pb pr_writeNode. pb @pr_lifteq. subst. pb pr_allocNode. pupd; [constructor; nsv|].
      eapply (pr_seq anyR); [done| |pnext]. { destruct (_ <? _); [apply pr_ppanic|by apply pr_copyPartial]. }
      eapply (pr_seq nR); [done| |pnext; by apply pr_pret].
      destruct (has_prefix _ _).
      { pb pr_trackL. pb pr_setNodeLeaf. pb pr_byteAt. subst. by apply pr_addChild. }
      destruct (has_prefix _ _).
      { pb pr_setNodeLeaf. pb pr_byteAt. subst. by apply pr_addChild. }
      eapply (pr_seq nR); [done| |pnext].
      { destruct (_ <? _); [|by apply pr_pret]. pb pr_byteAt. subst. by apply pr_addChild. }
      destruct (_ <? _); [|by apply pr_pret]. pb pr_byteAt. subst. by apply pr_addChild.
    + destruct (leafMatches _ _); [|by apply IH2].
      pb pr_writeLeaf. pb pr_loadL. pb pr_storeL. pb pr_writeNode. pb pr_setNodeLeaf. by apply pr_pret.
  - cbn [pinsertInner]. pb pr_loadN. fields. destruct (_ <? _).
    + pb pr_mismatch. subst. fields. destruct (_ <=? _).
      * eapply (pr_seq fcrel); [done| |].
        { destruct (_ <? _); [|apply pr_pret; by split; [constructor|]]. pb pr_byteAt. subst. by apply pr_lift, findChild_rel. }
        intros b1 [o i] [o' i'] K [Ho E]. cbn in Ho, E. subst i'. up K. destruct Ho as [u u' Hu|].
        -- eapply pr_seq; [done|by apply IH1|]. intros b2 [[[w v1] m1] o1] [[[w' v1'] m1'] o1'] K (Hw & E1 & E2 & E3). cbn in Hw, E1, E2, E3. subst v1' m1' o1'. up K.
           eapply (pr_seq nR); [done| |pnext; by apply pr_pret]. rewrite (eqb_rel _ _ w w' u u' ltac:(eassumption) Hw Hu). destruct (_ || _); [|by apply pr_pret].
           pb pr_trackN. pb pr_writeNode. pb pr_setChild. by apply pr_pret.
        -- pb pr_makeLeaf. eapply pr_seq; [done|by apply has_prefix_leaf|pnext]. subst. match goal with |- prel _ _ (if ?z then _ else _) _ => destruct z end.
           { pb pr_trackN. pb pr_writeNode. pb pr_allocNode. apply pr_ppanic. }
           pb pr_trackN. pb pr_writeNode. eapply (pr_seq nR); [done| |pnext; by apply pr_pret]. destruct (_ <? _); [|by apply pr_pret]. pb pr_byteAt. subst. by apply pr_addChild.
      * pb pr_allocNode. pupd; [constructor; nsv|]. eapply (pr_seq anyR); [done| |pnext]. { destruct (_ <? _); [apply pr_ppanic|by apply pr_copyPartial]. }
        pb pr_trackN. pb pr_writeNode. pb pr_loadN. fields. eapply (pr_seq nR); [done| |pnext].
        { destruct (_ <=? _).
          - pb pr_byteAt. subst. pb pr_addChild. pupd; [constructor; nsv|]. eapply (pr_seq anyR); [done| |pnext; by apply pr_pret]. destruct (_ <? _); [apply pr_ppanic|by apply pr_copyPartial].
          - pupd; [constructor; nsv|]. pb pr_fuel. pb pr_minimum. match goal with Ho : oR _ _ _ |- _ => destruct Ho end; [|apply pr_ppanic]. pb pr_loadL. fields. pb pr_byteAt. subst. pb pr_addChild.
            eapply (pr_seq anyR); [done| |pnext; by apply pr_pret]. destruct (_ <? _); [apply pr_ppanic|by apply pr_copyPartial]. }
        pb pr_makeLeaf. eapply (pr_seq nR); [done| |pnext; by apply pr_pret]. destruct (_ <? _); [|by apply pr_pret]. pb pr_byteAt. subst. by apply pr_addChild.
    + pb pr_byteAt. subst. eapply (pr_seq fcrel); [done|by apply pr_lift, findChild_rel|]. intros b1 [o i] [o' i'] K [Ho E]. cbn in Ho, E. subst i'. up K. destruct Ho as [u u' Hu|].
      * eapply pr_seq; [done|by apply IH1|]. intros b2 [[[w v1] m1] o1] [[[w' v1'] m1'] o1'] K (Hw & E1 & E2 & E3). cbn in Hw, E1, E2, E3. subst v1' m1' o1'. up K.
        eapply (pr_seq nR); [done| |pnext; by apply pr_pret]. rewrite (eqb_rel _ _ w w' u u' ltac:(eassumption) Hw Hu). destruct (_ || _); [|by apply pr_pret].
        pb pr_trackN. pb pr_writeNode. pb pr_setChild. by apply pr_pret.
      * pb pr_makeLeaf. destruct (_ <? _); [|by apply pr_pret]. pb pr_trackN. pb pr_writeNode. pb pr_addChild. by apply pr_pret.
Qed.
Lemma trel_set_root b t t' r r' : trel b t t' -> b true r r' -> trel b (set_t_root t r) (set_t_root t' r'). Proof. intros []; by split. Qed.
Lemma trel_set_size b t t' m : trel b t t' -> trel b (set_t_size t m) (set_t_size t' m). Proof. intros []; by split. Qed.
Lemma trel_set_tsize b t t' m : trel b t t' -> trel b (set_t_tsize t m) (set_t_tsize t' m). Proof. intros []; by split. Qed.
Lemma trel_set_track b t t' m : trel b t t' -> trel b (set_t_track t m) (set_t_track t' m). Proof. intros []; by split. Qed.
Lemma pr_txnInsert b k v : bij b -> prel eqR b (ptxnInsert k v) (ptxnInsert k v).
Proof.
  intros Hb. unfold ptxnInsert. cbv zeta. pb pr_getT. eapply pr_seq; [done|eapply (proj1 (pr_insert_both _)); [done|by apply tr_root]|].
  intros b2 [[[w v1] m1] o1] [[[w' v1'] m1'] o1'] K (Hw & E1 & E2 & E3). cbn in Hw, E1, E2, E3. subst v1' m1' o1'. up K. pb pr_getT.
  eapply (pr_seq anyR); [done| |pnext; by apply pr_pret]. apply pr_putT. apply trel_set_root; [|done]. destruct o1; [done|]. fields. by apply trel_set_tsize, trel_set_size.
Qed.

(** ** Delete *)
Definition delR b (x y : option addr * option ref * bool) : Prop := oR (b true) x.1.1 y.1.1 /\ rR b x.1.2 y.1.2 /\ x.2 = y.2.
Lemma opt_eqb_rel b o o' u u' : bij b -> oR (b true) o o' -> b true u u' -> opt_addr_eqb o (Some u) = opt_addr_eqb o' (Some u').
Proof.
  intros Hb [x y Hx|] Hu; unfold opt_addr_eqb.
  - apply bool_decide_ext. split; intros [= ->]; f_equal; by apply (Hb _ _ _ _ _ Hx Hu).
  - apply bool_decide_ext. split; intros [=].
Qed.
Lemma pr_recDelete f : forall b o o' key d, bij b -> oR (b true) o o' -> prel delR b (precursiveDelete f o key d : prog V _) (precursiveDelete f o' key d).
Proof.
  induction f as [|f IH]; intros b o o' key d Hb Ho; [apply pr_nfR|]. cbn [precursiveDelete]. destruct Ho as [x y Hx|]; [|apply pr_pret; by repeat constructor].
  pb pr_loadN. fields. eapply (pr_seq anyR); [done| |pnext]. { destruct (isLeafN _); [by apply pr_trackN|by apply pr_pret]. }
  destruct (_ && _); [apply pr_pret; by repeat constructor|]. eapply (pr_seq (fun b => oR (b false))); [done| |pnext].
  { match goal with Hn : nrel _ _ _ |- _ => destruct (nr_leaf _ _ _ Hn) end; [|apply pr_pret; constructor]. pb pr_loadL. fields. apply pr_pret. destruct (leafMatches _ _); by constructor. }
  match goal with Ho : oR _ _ _ |- _ => destruct Ho end.
  { pb pr_writeNode. pb pr_setNodeLeaf. pb pr_loadN. fields. destruct (_ <? _); apply pr_pret; by repeat constructor. }
  eapply (pr_seq eqR); [done| |pnext]. { destruct (_ <? _); [|by apply pr_pret]. pb @pr_lifteq. subst. by apply pr_pret. }
  subst. match goal with |- prel _ _ (if ?z then _ else _) _ => destruct z end; [apply pr_pret; by repeat constructor|]. pb pr_byteAt. subst.
  eapply (pr_seq fcrel); [done|by apply pr_lift, findChild_rel|]. intros b1 [o i] [o' i'] K [Ho E]. cbn in Ho, E. subst i'. up K. destruct Ho as [u u' Hu|]; [|apply pr_pret; by repeat constructor].
  eapply pr_seq; [done|apply IH; [done|by constructor]|]. intros b2 [[w r1] m1] [[w' r1'] m1'] K (Hw & Hr & E). cbn in Hw, Hr, E. subst m1'. up K.
  eapply (pr_seq nR); [done| |pnext].
  { rewrite (opt_eqb_rel _ _ _ _ _ ltac:(eassumption) Hw Hu). replace (is_some r1) with (is_some r1') by by destruct Hr. destruct (_ || _); [|by apply pr_pret].
    pb pr_trackN. pb pr_writeNode. pb pr_setChild. destruct Hw; [by apply pr_pret|by apply pr_removeChild]. }
  pb pr_loadN. fields. match goal with Hn : nrel _ ?n ?n' |- context [n_leaf ?n] => replace (is_some (n_leaf n)) with (is_some (n_leaf n')) by by destruct (nr_leaf _ _ _ Hn) end.
  destruct (_ =? _); [destruct (is_some _)|]; apply pr_pret; (split; [by constructor|by split]).
Qed.
Lemma pr_installEmptyRoot b : bij b -> prel anyR b (pinstallEmptyRoot : prog V _) pinstallEmptyRoot.
Proof.
  intros Hb. unfold pinstallEmptyRoot. pb pr_getT. fields. eapply (pr_seq anyR); [done|by apply pr_putT, trel_set_max|pnext]. eapply pr_seq; [done|by apply pr_allocL|pnext].
  pb pr_allocN. pb pr_getT. by apply pr_putT, trel_set_root.
Qed.
Lemma pr_txnDelete b k : bij b -> prel eqR b (ptxnDelete k : prog V _) (ptxnDelete k).
Proof.
  intros Hb. unfold ptxnDelete. cbv zeta. pb pr_getT. eapply pr_seq; [done|eapply pr_recDelete; [done|constructor; by apply tr_root]|].
  intros b2 [[w r1] m1] [[w' r1'] m1'] K (Hw & Hr & E). cbn in Hw, Hr, E. subst m1'. up K.
  eapply (pr_seq anyR); [done| |pnext]. { destruct Hw; [|by apply pr_installEmptyRoot]. pb pr_getT. by apply pr_putT, trel_set_root. }
  assert (G : forall b0 (p p' : prog V (V * bool)), bij b0 -> (forall b', kext b0 b' -> prel eqR b' p p') -> prel eqR b0
    (pbind pgetT (fun t => pbind (ptrackN (t_root t)) (fun _ => pbind pgetT (fun t => pbind (pputT (set_t_tsize (set_t_size t (u64_sub (t_size t) 1)) (u64_sub (t_tsize t) 1))) (fun _ => p)))))
    (pbind pgetT (fun t => pbind (ptrackN (t_root t)) (fun _ => pbind pgetT (fun t => pbind (pputT (set_t_tsize (set_t_size t (u64_sub (t_size t) 1)) (u64_sub (t_tsize t) 1))) (fun _ => p')))))).
  { intros b0 p p' Hb0 Hp. eapply pr_seq; [done|apply pr_getT|]. intros b1 t t' K1 Ht. eapply pr_seq; [apply K1|by apply pr_trackN; [apply K1|apply tr_root]|]. intros b3 _ _ K2 _.
    eapply pr_seq; [apply K2|apply pr_getT|]. intros b4 t4 t4' K3 Ht4. fields. eapply (pr_seq anyR); [apply K3|by apply pr_putT, trel_set_tsize, trel_set_size|]. intros b5 _ _ K4 _. apply Hp.
    eapply kext_trans; [exact K1|]. eapply kext_trans; [exact K2|]. by eapply kext_trans. }
  destruct Hr; [| |by apply pr_pret].
  - apply G; [done|]. intros b9 K. by apply pr_pret.
  - apply G; [done|]. intros b9 K. up K. pb pr_loadL. fields. by apply pr_pret.
Qed.

(** ** DeletePrefix *)
Definition dpR b (x y : option addr * nat) : Prop := oR (b true) x.1 y.1 /\ x.2 = y.2.
Lemma mrel_le b b' m m' : cle b b' -> mrel b m m' -> mrel b' m m'.
Proof. intros L Hm. eapply Forall2_impl; [exact Hm|]. intros x y [A B]. split; [done|by eapply oR_le]. Qed.
Lemma pr_deletePrefix f : forall b f' o o' key d d', fle f f' -> bij b -> oR (b true) o o' -> d = d' -> prel dpR b (pdeletePrefix f o key d : prog V _) (pdeletePrefix f' o' key d').
Proof.
  induction f as [|f IH]; intros b f' o o' key d d' Hff Hb Ho <-; [apply fle_0 with f'; [done|by intros ->]|]. destruct f' as [|f']; [apply pr_nfR|]. apply fle_S in Hff. cbn [pdeletePrefix]. destruct Ho as [x y Hx|]; [|apply pr_pret; by repeat constructor].
  pb pr_loadN. rename x0 into n, x' into n', H0 into Hn. fields. destruct (isLeafN _).
  { destruct (nr_leaf _ _ _ Hn); [|apply pr_pret; by repeat constructor]. pb pr_loadL. fields. destruct (has_prefix _ _); [|apply pr_pret; by repeat constructor].
    pb pr_trackN. pb pr_trackL. apply pr_pret; by repeat constructor. }
  eapply (pr_seq eqR); [done| |pnext]. { destruct (_ <? _); [|by apply pr_pret]. pb @pr_lifteq. subst. by apply pr_pret. }
  subst. eapply (pr_seq eqR); [done| |pnext].
  { destruct (nr_leaf _ _ _ Hn); [|by apply pr_pret]. pb pr_loadL. fields. destruct (has_prefix _ _); [|by apply pr_pret]. pb pr_trackL. by apply pr_pret. }
  subst. eapply (pr_seq (fun b x y => mrel b x.1 y.1 /\ x.2 = y.2)); [done| |].
  - match goal with |- prel ?R _ (?F _ 0 [] ?nd) (?G _ 0 [] _) =>
      enough (X : forall cs b0 cs' m m' nd i, bij b0 -> Forall2 (oR (b0 true)) cs cs' -> mrel b0 m m' -> prel R b0 (F cs i m nd) (G cs' i m' nd)) end.
    { apply X; [done|by apply nr_children|constructor]. }
    clear Hn Hx. clear dependent b'. intros cs. induction cs as [|o cs IHc]; intros b' cs' m m' nd i Hb Hc Hm.
    { apply Forall2_nil_inv_l in Hc as ->. by apply pr_pret. }
    apply Forall2_cons_inv_l in Hc as (o' & cs2 & Ho & Hc & ->). destruct Ho as [u u' Hu|]; [|by apply IHc].
    eapply pr_seq; [done|apply IH; [done|done|by constructor|done]|]. intros b2 [w dl] [w' dl'] K [Hw E]. cbn in Hw, E. subst dl'. apply (mrel_le _ _ _ _ (proj1 K)) in Hm. up K.
    eapply (pr_seq anyR); [done| |]. { destruct (_ <? _); [by apply pr_trackN|by apply pr_pret]. }
    intros b3 _ _ K _. apply (mrel_le _ _ _ _ (proj1 K)) in Hm. up K. apply IHc; [done|done|]. apply Forall2_app; [done|]. by repeat constructor.
  - intros b2 [m nd] [m' nd'] K [Hm E]. cbn in Hm, E. subst nd'. up K. eapply pr_seq; [done|by apply pr_writeNode|]. intros b3 z z' K Hz. cbv beta in Hz. apply (mrel_le _ _ _ _ (proj1 K)) in Hm. up K.
    eapply pr_seq; [done|by apply pr_loadN|]. intros b4 k k' K Hk. apply (mrel_le _ _ _ _ (proj1 K)) in Hm. up K. fields.
    eapply (pr_seq (fun b x y => nrel b x.1.1 y.1.1 /\ x.1.2 = y.1.2 /\ x.2 = y.2)); [done|apply pr_lift; by apply compact_rel|].
    intros b5 [[c s] nc] [[c' s'] nc'] K (Hc & E1 & E2). cbn in Hc, E1, E2. subst s' nc'. up K. pb pr_storeN. apply pr_pret. split; [by constructor|done].
Qed.
Lemma pr_txnDeletePrefix b k : bij b -> prel eqR b (ptxnDeletePrefix k : prog V _) (ptxnDeletePrefix k).
Proof.
  intros Hb. unfold ptxnDeletePrefix. cbv zeta. pb pr_getT. pb pr_fuel. eapply pr_seq; [done|eapply pr_deletePrefix; [done|done|constructor; by apply tr_root|done]|].
  intros b2 [w nd] [w' nd'] K [Hw E]. cbn in Hw, E. subst nd'. up K.
  eapply (pr_seq anyR); [done| |pnext]. { destruct Hw; [|by apply pr_installEmptyRoot]. pb pr_getT. by apply pr_putT, trel_set_root. }
  destruct (_ =? _); [by apply pr_pret|]. pb pr_getT. eapply pr_seq; [done|by apply pr_trackN; [|apply tr_root]|pnext]. pb pr_getT. fields.
  eapply (pr_seq anyR); [done|by apply pr_putT, trel_set_size, trel_set_tsize|pnext]. by apply pr_pret.
Qed.

(** ** Commit, Txn, lookups, clients *)
Definition tR b (x y : rtree) : Prop := b true (r_root x) (r_root y) /\ r_size x = r_size y /\ r_max x = r_max y.
Lemma pr_closeL b l (q : prog V unit) : prel anyR b (pret tt) q -> prel anyR b (pcloseAll l) q.
Proof. intros Hq. induction l as [|c l IH]; cbn [pcloseAll]; [done|]. by apply pr_L. Qed.
Lemma pr_closeR b l (q : prog V unit) : prel anyR b q (pret tt) -> prel anyR b q (pcloseAll l).
Proof. intros Hq. induction l as [|c l IH]; cbn [pcloseAll]; [done|]. by apply pr_R. Qed.
Lemma pr_notify b : bij b -> prel anyR b (pnotify : prog V _) pnotify.
Proof.
  intros Hb. unfold pnotify. pb pr_getT. fields. destruct (t_track _); [|by apply pr_pret]. unfold pslowNotify. pb pr_getT.
  eapply (pr_seq anyR); [done|by apply pr_closeL, pr_closeR, pr_pret|pnext]. by apply pr_putT, trel_set_chs.
Qed.
Lemma pr_commit b : bij b -> prel tR b (pcommit : prog V _) pcommit.
Proof.
  intros Hb. unfold pcommit. cbv zeta. pb pr_getT. fields. eapply (pr_seq anyR); [done| |pnext]. { destruct (t_track _); [by apply pr_notify|by apply pr_pret]. }
  apply pr_pret. unfold commitOnly, tR; cbn. match goal with Ht : trel _ _ _ |- _ => destruct Ht end. done.
Qed.
Lemma pr_newTxn b tr tr' : bij b -> tR b tr tr' -> prel anyR b (pnewTxn tr : prog V _) (pnewTxn tr').
Proof. intros Hb (A & B & C). unfold pnewTxn. rewrite B, C. pb pr_cloneN. apply pr_putT. by split. Qed.
Definition sR b (x y : sres) : Prop := match x, y with Found u, Found v => b false u v | Missing u, Missing v => b true u v | _, _ => False end.
Lemma pr_scan key cs : forall b cs', bij b -> Forall2 (oR (b true)) cs cs' -> prel (fun b => oR (b false)) b (pscanChildren key cs : prog V _) (pscanChildren key cs').
Proof.
  induction cs as [|o cs IH]; intros b cs' Hb Hc.
  { apply Forall2_nil_inv_l in Hc as ->. apply pr_pret. constructor. }
  apply Forall2_cons_inv_l in Hc as (o' & cs2 & Ho & Hc & ->). cbn [pscanChildren]. destruct Ho; [|by apply IH]. pb pr_loadN. match goal with Hn : nrel _ _ _ |- _ => destruct (nr_leaf _ _ _ Hn) end; [|by apply IH].
  pb pr_loadL. fields. destruct (leafMatches _ _); [apply pr_pret; by constructor|by apply IH].
Qed.
Lemma pr_ownLeaf b key n n' : bij b -> nrel b n n' -> prel (fun b => oR (b false)) b (pownLeaf key n : prog V _) (pownLeaf key n').
Proof. intros Hb Hn. unfold pownLeaf. destruct (nr_leaf _ _ _ Hn); [|apply pr_pret; constructor]. pb pr_loadL. fields. apply pr_pret. destruct (leafMatches _ _); by constructor. Qed.
Lemma pr_searchExit b key x y n n' : bij b -> b true x y -> nrel b n n' -> prel sR b (psearchExit key x n : prog V _) (psearchExit key y n').
Proof.
  intros Hb Hx Hn. unfold psearchExit. pb pr_ownLeaf. match goal with Ho : oR _ _ _ |- _ => destruct Ho end; [by apply pr_pret|]. eapply pr_seq; [done|apply pr_scan; [done|by apply nr_children]|pnext].
  match goal with Ho : oR _ _ _ |- _ => destruct Ho end; by apply pr_pret.
Qed.
Lemma pr_search f : forall b x y key d, bij b -> b true x y -> prel sR b (psearch f x key d : prog V _) (psearch f y key d).
Proof.
  induction f as [|f IH]; intros b x y key d Hb Hx; [apply pr_nfR|]. cbn [psearch]. pb pr_loadN. fields. eapply (pr_seq (fun b => oR (b false))); [done| |pnext].
  { destruct (isLeafN _); [by apply pr_ownLeaf|apply pr_pret; constructor]. }
  match goal with Ho : oR _ _ _ |- _ => destruct Ho end; [by apply pr_pret|]. eapply (pr_seq eqR); [done| |pnext]. { destruct (_ <? _); [apply pr_lifteq|by apply pr_pret]. }
  subst. destruct (_ && _); [by apply pr_searchExit|]. destruct (key !! _); [|by apply pr_searchExit]. eapply (pr_seq fcrel); [done|by apply pr_lift, findChild_rel|].
  intros b1 [o i] [o' i'] K [Ho E]. cbn in Ho, E |- *. subst i'. up K. destruct Ho; [by apply IH|by apply pr_searchExit].
Qed.
Lemma pr_getFrom b x y key : bij b -> b true x y -> prel eqR b (pgetFrom x key : prog V _) (pgetFrom y key).
Proof.
  intros Hb Hx. unfold pgetFrom. eapply pr_seq; [done|by apply pr_search|]. intros b1 [u|u] [u'|u'] K Hu; try done; cbn in Hu; up K; [|by apply pr_pret]. pb pr_loadL. fields. by apply pr_pret.
Qed.
Inductive otR b : option rtree -> option rtree -> Prop :=
| otR_some x y : tR b x y -> otR b (Some x) (Some y)
| otR_none : otR b None None.
Lemma pr_client (c : client V) : forall b, bij b -> prel otR b (pclient c) (pclient c).
Proof.
  induction c as [k v next IH|k next IH|k next IH|k next IH|w next IH| |]; intros b Hb; cbn [pclient].
  - pb pr_txnInsert. subst. by apply IH.
  - pb pr_txnDelete. subst. by apply IH.
  - pb pr_txnDeletePrefix. subst. by apply IH.
  - pb pr_getT. eapply pr_seq; [done|by apply pr_getFrom; [|apply tr_root]|pnext]. subst. by apply IH.
  - pb pr_getT. eapply pr_seq; [done|by apply pr_putT, trel_set_track|pnext]. by apply IH.
  - pb pr_commit. apply pr_pret. by constructor.
  - apply pr_pret. constructor.
Qed.
Lemma pr_goroutine b tr tr' (c : client V) : bij b -> tR b tr tr' -> prel otR b (goroutine tr c) (goroutine tr' c).
Proof. intros Hb Ht. unfold goroutine. eapply pr_seq; [done|by apply pr_newTxn|]. intros b' _ _ K _. apply pr_client, K. Qed.
Lemma pr_cloner b tr tr' : bij b -> tR b tr tr' -> prel otR b (cloner tr : prog V _) (cloner tr').
Proof. intros Hb (A & B & C). unfold cloner. pb pr_cloneN. apply pr_pret. by constructor. Qed.
End ProgRel.
