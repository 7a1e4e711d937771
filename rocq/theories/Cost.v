(** The number of memory cells a call creates, on every memory. *)
From Verif Require Export TreeOps.
Local Open Scope nat_scope.

Section Cost.
Context {V : Type} `{GoZero V}.
Notation TM := (M (st V)).
Notation HM := (M (heap V)).

(** [gr f n m]: running [m] raises the counter [f] by at most [n], also when it panics. *)
Definition gr {S A} (f : S -> nat) (n : nat) (m : M S A) : Prop := forall s, f (m s).2 <= f s + n.
Notation hc := (@h_next V).
Notation tc := (fun s : st V => h_next (s_h s)).

Lemma gr_bind {S A B} (f : S -> nat) a n (m : M S A) (k : A -> M S B) : gr f a m -> a <= n -> (forall x, gr f (n - a) (k x)) -> gr f n (bind m k).
Proof.
  intros Hm Ha Hk s. unfold bind. specialize (Hm s). destruct (m s) as [[x| |] s']; cbn [fst snd] in *; [|lia..].
  specialize (Hk x s'). lia.
Qed.
Lemma gr_le {S A} (f : S -> nat) a n (m : M S A) : gr f a m -> a <= n -> gr f n m.
Proof. intros Hm Ha s. specialize (Hm s). lia. Qed.
Lemma gr_ret {S A} (f : S -> nat) n (a : A) : gr f n (ret a). Proof. intros s. cbn. lia. Qed.
Lemma gr_panic {S A} (f : S -> nat) n : gr f n (@panic S A). Proof. intros s. cbn. lia. Qed.
Lemma gr_nofuel {S A} (f : S -> nat) n : gr f n (@nofuel S A). Proof. intros s. cbn. lia. Qed.
Lemma gr_lift {S A} (f : S -> nat) n (o : outcome A) : gr f n (lift o). Proof. intros s. cbn. lia. Qed.
Lemma gr_liftH {A} n (m : HM A) : gr hc n m -> gr tc n (liftH m).
Proof. intros Hm [h t]. specialize (Hm h). unfold liftH. cbn [s_h]. destruct (m h) as [o h']. done. Qed.

Lemma gr_hloadN a : gr hc 0 (hloadN a). Proof. intros h. unfold hloadN. destruct (_ !! _); cbn; lia. Qed.
Lemma gr_hloadL a : gr hc 0 (hloadL a). Proof. intros h. unfold hloadL. destruct (_ !! _); cbn; lia. Qed.
Lemma gr_hstoreN a n : gr hc 0 (hstoreN a n). Proof. intros h. cbn. lia. Qed.
Lemma gr_hstoreL a n : gr hc 0 (hstoreL a n). Proof. intros h. cbn. lia. Qed.
Lemma gr_hallocN n : gr hc 1 (hallocN n). Proof. intros h. cbn. lia. Qed.
Lemma gr_hallocL n : gr hc 1 (hallocL n). Proof. intros h. cbn. lia. Qed.
Lemma gr_hmakeChan : gr hc 0 hmakeChan. Proof. intros h. cbn. lia. Qed.
Lemma gr_getT : gr tc 0 getT. Proof. intros s. cbn. lia. Qed.
Lemma gr_putT t : gr tc 0 (putT t). Proof. intros s. cbn. lia. Qed.
Lemma gr_getH : gr tc 0 getH. Proof. intros s. cbn. lia. Qed.
Lemma gr_byteAt n k i : gr tc n (byteAt k i). Proof. unfold byteAt. destruct (_ !! _); [apply gr_ret|apply gr_panic]. Qed.
Lemma gr_probe {A} (g : st V -> A) : gr tc 0 (fun s => (Ok (g s), s)). Proof. intros s. cbn. lia. Qed.

Create HintDb gr discriminated.
Hint Resolve gr_hloadN gr_hloadL gr_hstoreN gr_hstoreL gr_hallocN gr_hallocL gr_hmakeChan gr_getT gr_putT gr_getH : gr.
Ltac g1 := first
  [ apply gr_ret | apply gr_panic | apply gr_nofuel | apply gr_lift | apply gr_byteAt
  | apply gr_liftH
  | match goal with |- gr _ _ (match ?x with _ => _ end) => destruct x end
  | eapply gr_le; [solve [eauto 2 with gr]|lia]
  | eapply gr_bind; [solve [eauto 2 with gr | apply gr_liftH; eauto 2 with gr | apply (gr_lift _ 0) | apply (gr_byteAt 0) | apply gr_probe]|lia|intros ?] ].
Ltac g := repeat g1.

Lemma gr_loadN a : gr tc 0 (loadN a). Proof. unfold loadN. g. Qed.
Lemma gr_loadL a : gr tc 0 (loadL a). Proof. unfold loadL. g. Qed.
Lemma gr_storeN a n : gr tc 0 (storeN a n). Proof. unfold storeN. g. Qed.
Lemma gr_storeL a n : gr tc 0 (storeL a n). Proof. unfold storeL. g. Qed.
Hint Resolve gr_loadN gr_loadL gr_storeN gr_storeL : gr.
Lemma gr_getMutateChN a : gr hc 0 (getMutateChN a). Proof. unfold getMutateChN. g. Qed.
Lemma gr_getMutateChL a : gr hc 0 (getMutateChL a). Proof. unfold getMutateChL. g. Qed.
Lemma gr_setMutateChN a c : gr hc 0 (setMutateChN a c). Proof. unfold setMutateChN. g. Qed.
Lemma gr_setMutateChL a c : gr hc 0 (setMutateChL a c). Proof. unfold setMutateChL. g. Qed.
Hint Resolve gr_getMutateChN gr_getMutateChL gr_setMutateChN gr_setMutateChL : gr.
Lemma gr_cloneN a b : gr hc 1 (cloneN a b).
Proof. unfold cloneN. eapply (gr_bind _ 0); [destruct b; g|lia|intros c]. g. Qed.
Lemma gr_cloneL a b : gr hc 1 (cloneL a b).
Proof. unfold cloneL. eapply (gr_bind _ 0); [destruct b; g|lia|intros c]. g. Qed.
Lemma gr_nextId : gr tc 0 nextId. Proof. unfold nextId. g. Qed.
Lemma gr_addTracked c : gr tc 0 (addTracked c). Proof. unfold addTracked. g. Qed.
Hint Resolve gr_cloneN gr_cloneL gr_nextId gr_addTracked : gr.
Lemma gr_trackN a : gr tc 0 (trackN a). Proof. unfold trackN. g. Qed.
Lemma gr_trackL a : gr tc 0 (trackL a). Proof. unfold trackL. g. Qed.
Hint Resolve gr_trackN gr_trackL : gr.
Lemma gr_trackOptL a : gr tc 0 (trackOptL a). Proof. unfold trackOptL. g. Qed.
Lemma gr_trackAllN l : gr tc 0 (trackAllN l). Proof. induction l; cbn [trackAllN]; g. Qed.
Hint Resolve gr_trackOptL gr_trackAllN : gr.
Lemma gr_writeNode a b : gr tc 1 (writeNode a b).
Proof. unfold writeNode. eapply (gr_bind _ 0); [destruct b; g|lia|intros _]. g. Qed.
Lemma gr_writeLeaf a b : gr tc 1 (writeLeaf a b).
Proof. unfold writeLeaf. eapply (gr_bind _ 0); [destruct b; g|lia|intros _]. g. Qed.
Lemma gr_allocNode k : gr tc 1 (allocNode k). Proof. unfold allocNode. g. Qed.
Lemma gr_allocLeaf : gr tc 1 allocLeaf. Proof. unfold allocLeaf. g. Qed.
Lemma gr_updN a f : gr tc 0 (updN a f). Proof. unfold updN. g. Qed.
Hint Resolve gr_writeNode gr_writeLeaf gr_allocNode gr_allocLeaf gr_updN : gr.
Lemma gr_setNodeLeaf a l : gr tc 0 (setNodeLeaf a l). Proof. unfold setNodeLeaf. g. Qed.
Lemma gr_setChild a i l : gr tc 0 (setChild a i l). Proof. unfold setChild. g. Qed.
Lemma gr_setKV a i l : gr tc 0 (setKV a i l). Proof. unfold setKV. g. Qed.
Lemma gr_copyPartial a p : gr tc 0 (copyPartial a p). Proof. unfold copyPartial. g. Qed.
Hint Resolve gr_setNodeLeaf gr_setChild gr_setKV gr_copyPartial : gr.
Lemma gr_makeLeaf k v : gr tc 2 (makeLeaf k v). Proof. unfold makeLeaf. g. Qed.
Lemma gr_moveLeaf a o : gr tc 1 (moveLeaf a o). Proof. unfold moveLeaf. g. Qed.
Hint Resolve gr_makeLeaf gr_moveLeaf : gr.
Lemma gr_addChild256 a c ch : gr tc 0 (addChild256 a c ch). Proof. unfold addChild256. g. Qed.
Hint Resolve gr_addChild256 : gr.
Lemma gr_addChild48 a c ch : gr tc 2 (addChild48 a c ch). Proof. unfold addChild48. g. Qed.
Hint Resolve gr_addChild48 : gr.
Lemma gr_addChild16 a c ch : gr tc 4 (addChild16 a c ch). Proof. unfold addChild16. g. Qed.
Hint Resolve gr_addChild16 : gr.
Lemma gr_addChild4 a c ch : gr tc 6 (addChild4 a c ch). Proof. unfold addChild4. g. Qed.
Hint Resolve gr_addChild4 : gr.
Lemma gr_addChild a c ch : gr tc 6 (addChild a c ch). Proof. unfold addChild. g. Qed.
Hint Resolve gr_addChild : gr.
Lemma gr_removeChild4 a c : gr tc 1 (removeChild4 a c). Proof. unfold removeChild4. g. Qed.
Lemma gr_removeChild16 a c : gr tc 2 (removeChild16 a c). Proof. unfold removeChild16. g. Qed.
Lemma gr_removeChild48 a c : gr tc 2 (removeChild48 a c).
Proof. unfold removeChild48. do 4 g1. eapply (gr_bind _ 0); [g|lia|intros _]. all: g. Qed.
Lemma gr_removeChild256 a c : gr tc 2 (removeChild256 a c). Proof. unfold removeChild256. g. Qed.
Hint Resolve gr_removeChild4 gr_removeChild16 gr_removeChild48 gr_removeChild256 : gr.
Lemma gr_removeChild a c : gr tc 2 (removeChild a c). Proof. unfold removeChild. g. Qed.
Hint Resolve gr_removeChild : gr.

Ltac gb c := eapply (gr_bind _ c); [g|lia|intros ?].
Ltac gd := match goal with |- gr _ _ (let '_ := ?x in _) => destruct x | |- gr _ _ (match ?x with _ => _ end) => destruct x end.
Lemma gr_insert key v : forall f,
  (forall node depth, gr tc (16 + Nat.div2 f) (recursiveInsert f node key v depth)) /\
  (forall node depth, gr tc (16 + Nat.div2 (S f)) (insertInner f node key v depth)).
Proof.
  induction f as [|f [IHr IHi]]; [split; intros; apply gr_nofuel|].
  assert (D : Nat.div2 (S (S f)) = S (Nat.div2 f)) by done. split; intros node depth.
  - cbn [recursiveInsert]. do 2 g1; [g|]. g1. g1; [|apply IHi]. g1. g1.
    + g1; [g|]. do 6 g1. gb 0. gb 0. eapply (gr_bind _ 12); [|lia|intros ?; g]. g1; [g|]. g1; [g|]. gb 6. g.
    + g1; [g|apply IHi].
  - cbn [insertInner]. g1. g1.
    + do 2 g1. g1.
      * gb 0. gd. gd; [|g].
        -- eapply gr_bind; [apply IHr|lia|intros [[[newChild val] mut] old]]. gb 1. g.
        -- gb 0. g1; [g|]. do 2 g1. gb 6. g.
      * do 2 g1. gb 0. do 3 g1. gb 6. { gb 0. g. } { gb 0. g. } g1. gb 6. g.
    + do 2 g1. gd. gd.
      * eapply gr_bind; [apply IHr|lia|intros [[[newChild val] mut] old]]. gb 1. g.
      * g.
Qed.
Lemma gr_txnInsert k v : gr tc (length k + 19) (txnInsert k v).
Proof.
  unfold txnInsert. g1. eapply gr_bind; [apply (gr_insert _ _ _)| |intros [[[newRoot oldVal] x'] old]; g].
  unfold insert_fuel, getTreeKey. rewrite app_length. cbn [length]. replace (2 * (length k + 1) + 4) with (2 * (length k + 3)) by lia.
  rewrite Nat.div2_double. lia.
Qed.

Lemma gr_delete key : forall f o depth, gr tc (3 * f) (recursiveDelete f o key depth).
Proof.
  induction f as [|f IH]; intros o depth; [apply gr_nofuel|]. cbn [recursiveDelete]. g1; [|g]. g1. gb 0. g1; [g|]. gb 0. g1; [g|].
  gb 0. g1; [g|]. do 2 g1. gd. gd; [|g].
  eapply gr_bind; [apply IH|lia|intros [[newChild val] mut]]. gb 3. g.
Qed.
Lemma gr_installEmptyRoot : gr tc 2 installEmptyRoot. Proof. unfold installEmptyRoot. g. Qed.
Hint Resolve gr_installEmptyRoot : gr.
Lemma gr_txnDelete k : gr tc (3 * length k + 11) (txnDelete k).
Proof.
  unfold txnDelete. g1. eapply gr_bind; [apply gr_delete| |intros [[newRoot l] x']].
  - unfold delete_fuel, getTreeKey. rewrite app_length. cbn [length]. lia.
  - unfold delete_fuel, getTreeKey. rewrite app_length. cbn [length]. gb 2. g.
Qed.
Lemma gr_commit : gr tc 0 commit.
Proof.
  assert (Hc : forall cs, gr hc 0 (closeAll cs)).
  { induction cs as [|c cs IH]; cbn [closeAll]; [g|]. eapply (gr_bind _ 0); [|lia|intros _; exact IH]. intros h. cbn. destruct (bool_decide _); cbn; lia. }
  unfold commit, notify, slowNotify. g1. gb 0. g.
Qed.
Lemma gr_withTxn {A} n (t : rtree) (m : TM A) : gr tc n m -> gr hc (S n) (withTxn t m).
Proof.
  intros Hm h. unfold withTxn, newTxn, bind. pose proof (gr_cloneN (r_root t) true h) as Hc. destruct (cloneN _ _ h) as [[a| |] h1]; cbn [fst snd ret] in *; [|lia..].
  pose proof (Hm (mkS h1 (mkTx a (r_size t) (r_max t) (r_size t) (r_max t) false []))) as Hm1. cbn [s_h] in Hm1.
  destruct (m _) as [[x| |] s]; cbn [fst snd] in *; [|lia..]. pose proof (gr_commit s) as Hk. destruct (commit s) as [[y| |] s']; cbn [fst snd] in *; lia.
Qed.
End Cost.
