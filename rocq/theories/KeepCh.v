(** Two predicates about the channels of leaves that updates preserve: a tracking transaction records the
    channel of a leaf before it takes it away from the leaf's value; a transaction that does not track
    leaves the channel of every existing leaf alone. *)
From Verif Require Export Keep.
From stdpp Require Import list.
Local Open Scope nat_scope.

Section Common.
Context {V : Type} `{GoZero V}.
Lemma getMutateChL_cases (h : heap V) a l : h_leaves h !! a = Some l ->
  (exists c, l_ch l = Some c /\ getMutateChL a h = (Ok c, h)) \/
  (l_ch l = None /\ getMutateChL a h = (Ok (h_nextch h), mkH (h_nodes h) (<[a := setl_ch l (Some (h_nextch h))]> (h_leaves h)) (h_next h) (S (h_nextch h)) (h_closed h))).
Proof. intros Hl. unfold getMutateChL, bind, hloadL. rewrite Hl. destruct (l_ch l) as [c|]; [left; by exists c|right; done]. Qed.
End Common.

(** ** A tracking transaction *)
Section Tagged.
Context {V : Type} `{GoZero V} (tag : V -> bool) (tag0 : tag go_zero = false) (c : chan).
Notation TM := (M (st V)).
Definition Jm (m : gmap addr (lnode V)) : Prop := forall x l, m !! x = Some l -> tag (l_val l) = true -> l_ch l = Some c.
Definition Jh (h : heap V) : Prop := Jm (h_leaves h).
Definition J (s : st V) : Prop := t_track (s_t s) = true /\ (c ∈ t_chs (s_t s) \/ Jh (s_h s)).

Lemma J_t : forall (h : heap V) t t', t_track t' = t_track t -> (forall c, c ∈ t_chs t -> c ∈ t_chs t') -> J (mkS h t) -> J (mkS h t').
Proof. intros h t t' E Hc [H1 [H2|H2]]; split; cbn in *; [congruence|auto|congruence|auto]. Qed.
Lemma J_n : forall (h h' : heap V) t, h_leaves h' = h_leaves h -> h_next h <= h_next h' -> J (mkS h t) -> J (mkS h' t).
Proof. intros h h' t E _ [H1 [H2|H2]]; split; cbn in *; [done|by left|done|]. right. intros x l. rewrite E. apply H2. Qed.
Lemma Jh_insert m a l : Jm m -> (tag (l_val l) = true -> l_ch l = Some c) -> Jm (<[a := l]> m).
Proof. intros Hj Hl x l' Hx Ht. apply lookup_insert_Some in Hx as [[-> <-]|[_ Hx]]; [auto|by eapply Hj]. Qed.
Lemma J_al : forall (h : heap V) t l, tag (l_val l) = false -> J (mkS h t) ->
  J (mkS (mkH (h_nodes h) (<[h_next h := l]> (h_leaves h)) (S (h_next h)) (h_nextch h) (h_closed h)) t).
Proof. intros h t l Hl [H1 [H2|H2]]; (split; [done|]); [by left|]. right. apply Jh_insert; [done|]. congruence. Qed.
Lemma J_st : forall (h : heap V) t a l l', h_leaves h !! a = Some l -> l_ch l' = l_ch l -> (l_val l' = l_val l \/ tag (l_val l') = false) -> J (mkS h t) ->
  J (mkS (mkH (h_nodes h) (<[a := l']> (h_leaves h)) (h_next h) (h_nextch h) (h_closed h)) t).
Proof.
  intros h t a l l' Hl Hc Hv [H1 [H2|H2]]; (split; [done|]); [by left|]. right. apply Jh_insert; [done|]. intros Ht. rewrite Hc.
  destruct Hv as [Hv|Hv]; [|congruence]. rewrite Hv in Ht. by eapply H2.
Qed.
(** after trackL the leaf is free to lose its channel *)
Lemma J_trackL_strong a s o s' : J s -> trackL (V:=V) a s = (o, s') -> t_track (s_t s') = true /\
  (c ∈ t_chs (s_t s') \/ (Jh (s_h s') /\ forall l, h_leaves (s_h s') !! a = Some l -> tag (l_val l) = false)).
Proof.
  intros [Ht Hj] E. unfold trackL, bind, getT in E. cbn in E. rewrite Ht in E. cbn in E. case_bool_decide as Hex.
  2:{ injection E as <- <-. split; [done|]. destruct Hj as [Hj|Hj]; [by left|]. right. split; [done|]. intros l Hl. by destruct Hex. }
  destruct Hex as [l Hl]. unfold liftH in E. destruct s as [h t]. cbn [s_h s_t] in *.
  destruct (getMutateChL_cases h a l Hl) as [(c0 & Hc0 & Eg)|(Hc0 & Eg)]; rewrite Eg in E; unfold addTracked, bind, getT, putT, setMutateChL, hloadL, hmakeChan, bind in E; cbn in E.
  - rewrite Hl in E. cbn in E. injection E as <- <-. cbn. split; [done|]. destruct Hj as [Hj|Hj]; [left; apply elem_of_app; by left|].
    destruct (tag (l_val l)) eqn:Etag.
    + left. apply elem_of_app. right. apply elem_of_list_singleton. specialize (Hj _ _ Hl Etag). congruence.
    + right. split; [|intros l'; rewrite lookup_insert; by intros [= <-]]. apply Jh_insert; [done|]. cbn. congruence.
  - rewrite lookup_insert in E. cbn in E. injection E as <- <-. cbn. split; [done|]. destruct Hj as [Hj|Hj]; [left; apply elem_of_app; by left|].
    assert (Etag : tag (l_val l) = false). { destruct (tag (l_val l)) eqn:Etag; [|done]. specialize (Hj _ _ Hl Etag). congruence. }
    right. split; [|intros l'; rewrite lookup_insert; by intros [= <-]]. unfold Jh. cbn. rewrite insert_insert. apply Jh_insert; [done|]. cbn. congruence.
Qed.
Lemma J_trackL a : kv J (trackL (V:=V) a).
Proof. intros s Hs. destruct (trackL a s) as [o s'] eqn:E. destruct (J_trackL_strong _ _ _ _ Hs E) as [H1 [H2|[H2 _]]]; (split; [done|]); [by left|by right]. Qed.
Lemma J_addr_copy (h : heap V) t l c1 : J (mkS h t) -> (l_ch l = c1 \/ c ∈ t_chs t \/ tag (l_val l) = false) -> (forall a, h_leaves h !! a = Some l -> True) ->
  (Jh h -> tag (l_val l) = true -> l_ch l = Some c) ->
  J (mkS (mkH (h_nodes h) (<[h_next h := setl_ch l c1]> (h_leaves h)) (S (h_next h)) (h_nextch h) (h_closed h)) t).
Proof.
  intros [H1 [H2|H2]] Hc _ Hl; (split; [done|]); [by left|]. destruct Hc as [Hc|[Hc|Hc]]; [|by left|].
  - right. apply Jh_insert; [done|]. cbn. intros Ht. subst c1. by apply Hl.
  - right. apply Jh_insert; [done|]. cbn. congruence.
Qed.
Lemma J_writeLeaf a b : kv J (writeLeaf (V:=V) a b).
Proof.
  intros s Hs. unfold writeLeaf. unfold bind at 1.
  assert (Hpre : exists o s1, (if b then trackL a else ret tt) s = (o, s1) /\ J s1 /\
    (b = true -> c ∈ t_chs (s_t s1) \/ forall l, h_leaves (s_h s1) !! a = Some l -> tag (l_val l) = false)).
  { destruct b; [|by exists (Ok tt), s]. destruct (trackL a s) as [o s1] eqn:E. exists o, s1. split; [done|].
    destruct (J_trackL_strong _ _ _ _ Hs E) as [H1 [H2|[H2 H3]]]; split; try (split; [done|]); auto. }
  destruct Hpre as (o & s1 & -> & Hs1 & Hb). destruct o as [[]| |]; [|done..]. clear Hs.
  refine (kp_loadL J _ a _ s1 _ Hs1); [apply J_n|]. intros l Hl. apply (kp_getT J). destruct (Nat.ltb _ _); [intros Hx; exact Hx|].
  destruct s1 as [h t]. cbn [s_h s_t] in *.
  assert (Hcl : kp J (liftH (cloneL a (negb b))) (mkS h t)).
  { intros Hj. unfold liftH, cloneL. cbn [s_h s_t]. destruct b; cbn [negb].
    - unfold bind, ret, hloadL, hallocL. cbn. rewrite Hl. cbn. apply J_addr_copy; [done| |done|].
      + destruct (Hb eq_refl) as [?|Hx]; [right; by left|right; right; by apply Hx].
      + intros Hh. by apply (Hh a).
    - unfold bind, ret, hloadL, hallocL. destruct (getMutateChL_cases h a l Hl) as [(c0 & Hc0 & Eg)|(Hc0 & Eg)]; rewrite Eg.
      + rewrite Hl. cbn. apply J_addr_copy; [done|by left|done|]. intros Hh. by apply (Hh a).
      + cbn. rewrite lookup_insert. cbn. destruct Hj as [H1 [H2|H2]]; (split; [done|]); [by left|]. right. cbn in *.
        assert (Etag : tag (l_val l) = false). { destruct (tag (l_val l)) eqn:Etag; [|done]. specialize (H2 _ _ Hl Etag). congruence. }
        apply Jh_insert; [|cbn; congruence].
        apply Jh_insert; [done|]. cbn. congruence. }
  apply (kp_bind J); [done|]. intros a' s2 _. apply (kv_bind J); [apply (kv_nextId J J_t)|]. intros i s3.
  apply (kp_loadL J J_n). intros l' Hl'. apply (kp_bind J); [|intros [] s4 _ Hx; exact Hx].
  eapply (kp_storeL J (fun v => tag v = false) J_st); [exact Hl'|done|by left].
Qed.

Theorem J_insert k v : tag v = false -> kv J (txnInsert (V:=V) k v).
Proof. apply (kv_txnInsert J (fun v => tag v = false) tag0 J_t J_n J_al J_st J_trackL J_writeLeaf). Qed.
Theorem J_delete k : kv J (txnDelete (V:=V) k).
Proof. apply (kv_txnDelete J (fun v => tag v = false) tag0 J_t J_n J_al J_trackL J_writeLeaf). Qed.
End Tagged.

(** ** A transaction that does not track *)
Section Untracked.
Context {V : Type} `{GoZero V} (la : addr) (c : chan).
Notation TM := (M (st V)).
Notation HM := (M (heap V)).
Definition Uh (h : heap V) : Prop := la < h_next h /\ exists l, h_leaves h !! la = Some l /\ l_ch l = Some c.
Definition U (s : st V) : Prop := t_track (s_t s) = false /\ Uh (s_h s).
Lemma U_t : forall (h : heap V) t t', t_track t' = t_track t -> (forall c, c ∈ t_chs t -> c ∈ t_chs t') -> U (mkS h t) -> U (mkS h t').
Proof. intros h t t' E Hc [H1 H2]; split; cbn in *; congruence. Qed.
Lemma Uh_n : forall (h h' : heap V), h_leaves h' = h_leaves h -> h_next h <= h_next h' -> Uh h -> Uh h'.
Proof. intros h h' E Hn [H1 H2]. split; [lia|]. by rewrite E. Qed.
Lemma U_n : forall (h h' : heap V) t, h_leaves h' = h_leaves h -> h_next h <= h_next h' -> U (mkS h t) -> U (mkS h' t).
Proof. intros h h' t E Hn [H1 H2]. split; [done|]. by eapply Uh_n. Qed.
Lemma Uh_al (h : heap V) l : Uh h -> Uh (mkH (h_nodes h) (<[h_next h := l]> (h_leaves h)) (S (h_next h)) (h_nextch h) (h_closed h)).
Proof. intros [H2 (l0 & H3 & H4)]. cbn. split; [cbn; lia|]. exists l0. cbn. rewrite lookup_insert_ne by lia. done. Qed.
Lemma U_al : forall (h : heap V) t l, True -> U (mkS h t) ->
  U (mkS (mkH (h_nodes h) (<[h_next h := l]> (h_leaves h)) (S (h_next h)) (h_nextch h) (h_closed h)) t).
Proof. intros h t l _ [H1 H2]. split; [done|]. by apply Uh_al. Qed.
Lemma U_st : forall (h : heap V) t a l l', h_leaves h !! a = Some l -> l_ch l' = l_ch l -> (l_val l' = l_val l \/ True) -> U (mkS h t) ->
  U (mkS (mkH (h_nodes h) (<[a := l']> (h_leaves h)) (h_next h) (h_nextch h) (h_closed h)) t).
Proof.
  intros h t a l l' Hl Hc _ [H1 [H2 (l0 & H3 & H4)]]. cbn in *. split; [done|]. split; [cbn; lia|]. cbn. destruct (decide (a = la)) as [->|Hne].
  - exists l'. rewrite lookup_insert. split; [done|]. congruence.
  - exists l0. by rewrite lookup_insert_ne.
Qed.
Lemma U_trackL a : kv U (trackL (V:=V) a).
Proof. intros s [H1 H2]. unfold trackL, bind, getT. cbn. by rewrite H1. Qed.
Definition hu {A} (m : HM A) : Prop := forall h, Uh h -> Uh (m h).2.
Lemma hu_bind {A B} (m : HM A) (k : A -> HM B) : hu m -> (forall a, hu (k a)) -> hu (bind m k).
Proof. intros Hm Hk h Hh. specialize (Hm h Hh). unfold bind. destruct (m h) as [[a| |] h']; cbn in *; [|done..]. by apply Hk. Qed.
Lemma hu_hn {A} (m : HM A) : hn m -> hu m.
Proof. intros Hm h Hh. destruct (Hm h). by eapply Uh_n. Qed.
Lemma hu_getMutateChL a : hu (getMutateChL a).
Proof.
  intros h Hh. destruct (h_leaves h !! a) as [l|] eqn:Hl; [|unfold getMutateChL, bind, hloadL; by rewrite Hl].
  destruct (getMutateChL_cases h a l Hl) as [(c0 & Hc0 & ->)|(Hc0 & ->)]; [done|]. destruct Hh as [H2 (l0 & H3 & H4)]. split; [done|]. cbn.
  exists l0. rewrite lookup_insert_ne; [done|]. intros ->. congruence.
Qed.
Lemma hu_cloneL a b : hu (cloneL a b).
Proof.
  unfold cloneL. apply hu_bind; [destruct b; [apply hu_bind; [apply hu_getMutateChL|intros; by apply hu_hn]|by apply hu_hn]|]. intros o.
  apply hu_bind; [apply hu_hn, hn_loadL|]. intros l h Hh. by apply Uh_al.
Qed.
Lemma kvu_liftH {A} (m : HM A) : hu m -> kv U (liftH m).
Proof. intros Hm [h t] [H1 H2]. unfold liftH. cbn [s_h s_t] in *. specialize (Hm h H2). destruct (m h) as [o h']. done. Qed.
Lemma U_writeLeaf a b : kv U (writeLeaf (V:=V) a b).
Proof.
  intros s. unfold writeLeaf. apply (kv_bind U); [destruct b; [apply U_trackL|intros ? Hx; exact Hx]|]. intros [] s1.
  apply (kp_loadL U U_n). intros l Hl. apply (kp_getT U). destruct (Nat.ltb _ _); [intros Hx; exact Hx|].
  apply (kv_bind U); [apply kvu_liftH, hu_cloneL|]. intros a' s2. apply (kv_bind U); [apply (kv_nextId U U_t)|]. intros i s3.
  apply (kp_loadL U U_n). intros l' Hl'. apply (kp_bind U); [|intros [] s4 _ Hx; exact Hx].
  eapply (kp_storeL U (fun _ => True) U_st); [exact Hl'|done|by left].
Qed.
Theorem U_insert k v : kv U (txnInsert (V:=V) k v).
Proof. by apply (kv_txnInsert U (fun _ => True) I U_t U_n U_al U_st U_trackL U_writeLeaf). Qed.
Theorem U_delete k : kv U (txnDelete (V:=V) k).
Proof. apply (kv_txnDelete U (fun _ => True) I U_t U_n U_al U_trackL U_writeLeaf). Qed.
Theorem U_deletePrefix k : kv U (txnDeletePrefix (V:=V) k).
Proof. apply (kv_txnDeletePrefix U (fun _ => True) I U_t U_n U_al U_trackL). Qed.

Lemma hu_getWatchFrom r k : hu (getWatchFrom (V:=V) r k).
Proof.
  apply hu_bind; [by apply hu_hn|]. intros h. apply hu_bind; [by apply hu_hn|]. intros [a|a].
  - apply hu_bind; [apply hu_hn, hn_loadL|]. intros l. apply hu_bind; [apply hu_getMutateChL|]. intros c'. by apply hu_hn.
  - apply hu_bind; [apply hu_hn, hn_getMutateChN|]. intros c'. by apply hu_hn.
Qed.
Lemma hu_newTxn t : hu (newTxn (V:=V) t).
Proof. apply hu_bind; [apply hu_hn, hn_cloneN|]. intros; by apply hu_hn. Qed.
Lemma hu_cloneTxn t : hu (cloneTxn (V:=V) t).
Proof. apply hu_bind; [apply hu_hn, hn_cloneN|]. intros; by apply hu_hn. Qed.
Lemma hu_cloneTree t : hu (cloneTree (V:=V) t).
Proof. apply hu_bind; [apply hu_hn, hn_cloneN|]. intros; by apply hu_hn. Qed.
Lemma hu_newTree : hu (newTree (V:=V)).
Proof. apply hu_bind; [intros h Hh; by apply Uh_al|]. intros l. apply hu_bind; [apply hu_hn, hn_allocN|]. intros; by apply hu_hn. Qed.
Lemma hu_withTxn {A} t (m : TM A) : kv U m -> hu (withTxn t m).
Proof.
  intros Hm h Hh. unfold withTxn. pose proof (hu_newTxn t h Hh) as Hn. destruct (newTxn t h) as [[tx| |] h1] eqn:En; cbn in *; [|done..].
  assert (Ht : t_track tx = false). { unfold newTxn, bind in En. destruct (cloneN _ _ h) as [[r| |] h2]; [|done..]. by injection En as <- <-. }
  destruct (Hm (mkS h1 tx) (conj Ht Hn)) as [R1 R2]. destruct (m (mkS h1 tx)) as [[a| |] s]; cbn in *; [|done..].
  unfold commit, bind, getT. rewrite R1. done.
Qed.
End Untracked.
