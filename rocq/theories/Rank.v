(** The node graph has no cycles, in every state a client can reach.

    A rank is a number for every address such that every child pointer, stale ones included, leads to a lower
    rank.  Every routine of the code keeps the existence of a rank: copies get the rank of the original, a
    new inner node is put between its parent and its children. *)
From Verif Require Export Fuel.
From stdpp Require Import list.
Local Open Scope nat_scope.

Section Rank.
Context {V : Type} `{GoZero V}.
Notation TM := (M (st V)).
Notation HM := (M (heap V)).
Implicit Types (rk : nat -> nat) (h : heap V).

(** all children of the node are allocated and rank below k *)
Definition below rk (nx k : nat) (n : inode) : Prop := Forall (fun o => match o with Some b => b < nx /\ rk b < k | None => True end) (n_children n).
Definition rok rk h : Prop := forall x n, h_nodes h !! x = Some n -> x < h_next h /\ below rk (h_next h) (rk x) n.
Definition rst rk (s : st V) : Prop := rok rk (s_h s) /\ t_root (s_t s) < h_next (s_h s).
Definition agree rk rk' (k : nat) : Prop := forall x, x < k -> rk' x = rk x.

(** Programs that keep a rank (extended to the new cells) and never run out of fuel. *)
Definition gx {S A} (I : (nat -> nat) -> S -> Prop) (N : S -> nat) rk (m : M S A) (Q : A -> (nat -> nat) -> S -> Prop) (s : S) : Prop :=
  match m s with
  | (Ok a, s') => exists rk', agree rk rk' (N s) /\ N s <= N s' /\ I rk' s' /\ Q a rk' s'
  | (Panic, s') => exists rk', agree rk rk' (N s) /\ N s <= N s' /\ I rk' s'
  | (NoFuel, _) => False
  end.
Definition Ns (s : st V) := h_next (s_h s).
Notation rx := (gx rst Ns).
Notation hx := (gx rok h_next).
Notation QS A := (A -> (nat -> nat) -> st V -> Prop).
Notation QH A := (A -> (nat -> nat) -> heap V -> Prop).

Lemma agree_refl rk k : agree rk rk k. Proof. done. Qed.
Lemma agree_trans rk1 rk2 rk3 k l : agree rk1 rk2 k -> agree rk2 rk3 l -> k <= l -> agree rk1 rk3 k.
Proof. intros A B L x Hx. rewrite (B x) by lia. by apply A. Qed.
Lemma below_mono rk rk' nx nx' k k' n : below rk nx k n -> agree rk rk' nx -> nx <= nx' -> k <= k' -> below rk' nx' k' n.
Proof.
  intros Hb A L1 L2. eapply Forall_impl; [exact Hb|]. intros [b|]; [|done]. intros [Hb1 Hb2]. cbn. rewrite (A b) by done. lia.
Qed.

Section Gx.
Context {S : Type} (I : (nat -> nat) -> S -> Prop) (N : S -> nat).
Lemma gx_bind {A B} (m : M S A) (k : A -> M S B) rk Q s :
  gx I N rk m (fun a rk' s' => agree rk rk' (N s) -> N s <= N s' -> I rk' s' -> gx I N rk' (k a) Q s') s -> gx I N rk (bind m k) Q s.
Proof.
  unfold gx, bind. destruct (m s) as [[a| |] s1]; [|done..]. intros (rk1 & A1 & L1 & I1 & K). specialize (K A1 L1 I1).
  destruct (k a s1) as [[b| |] s2]; [| |done].
  - destruct K as (rk2 & A2 & L2 & I2 & K). exists rk2. split; [by eapply agree_trans|]. split; [lia|]. done.
  - destruct K as (rk2 & A2 & L2 & I2). exists rk2. split; [by eapply agree_trans|]. split; [lia|]. done.
Qed.
Lemma gx_mono {A} (m : M S A) rk (P Q : A -> (nat -> nat) -> S -> Prop) s : gx I N rk m P s ->
  (forall a rk' s', agree rk rk' (N s) -> N s <= N s' -> I rk' s' -> P a rk' s' -> Q a rk' s') -> gx I N rk m Q s.
Proof. unfold gx. destruct (m s) as [[a| |] s1]; [|done..]. intros (rk1 & A1 & L1 & I1 & K) HPQ. exists rk1. split_and!; auto. Qed.
Lemma gx_use {A B} (m : M S A) (k : A -> M S B) rk P Q s : gx I N rk m P s ->
  (forall a rk' s', agree rk rk' (N s) -> N s <= N s' -> I rk' s' -> P a rk' s' -> gx I N rk' (k a) Q s') -> gx I N rk (bind m k) Q s.
Proof. intros Hm Hk. apply gx_bind. eapply gx_mono; [exact Hm|]. auto. Qed.
Lemma gx_ret {A} (a : A) rk (Q : A -> (nat -> nat) -> S -> Prop) s : I rk s -> Q a rk s -> gx I N rk (ret a) Q s.
Proof. intros. exists rk. split_and!; auto. apply agree_refl. Qed.
Lemma gx_panic {A} rk (Q : A -> (nat -> nat) -> S -> Prop) s : I rk s -> gx I N rk panic Q s.
Proof. intros. exists rk. split_and!; auto. apply agree_refl. Qed.
Lemma gx_lift {A} (o : outcome A) rk (Q : A -> (nat -> nat) -> S -> Prop) s : I rk s -> o <> NoFuel -> (forall a, o = Ok a -> Q a rk s) -> gx I N rk (lift o) Q s.
Proof. intros Hi Hn Hq. unfold gx, lift. destruct o as [a| |]; [| |done]; exists rk; split_and!; auto using agree_refl. Qed.
End Gx.

Lemma rx_liftH {A} (m : HM A) rk (Q : QS A) s : rst rk s -> hx rk m (fun a rk' h' => rst rk' (mkS h' (s_t s)) -> Q a rk' (mkS h' (s_t s))) (s_h s) -> rx rk (liftH m) Q s.
Proof.
  intros [Hr Ht]. unfold gx, liftH, Ns. destruct (m (s_h s)) as [[a| |] h']; [| |done].
  - intros (rk1 & A1 & L1 & I1 & K). exists rk1. cbn. assert (rst rk1 (mkS h' (s_t s))) by (split; cbn; [done|lia]). auto.
  - intros (rk1 & A1 & L1 & I1). exists rk1. cbn. split_and!; [done|done|]. split; cbn; [done|lia].
Qed.

(** ** Memory *)
Lemma hx_loadN a rk (Q : QH inode) h : rok rk h -> (forall n, h_nodes h !! a = Some n -> a < h_next h -> below rk (h_next h) (rk a) n -> Q n rk h) -> hx rk (hloadN a) Q h.
Proof.
  intros Hr Hq. unfold gx, hloadN. destruct (h_nodes h !! a) as [n|] eqn:E; exists rk; split_and!; auto using agree_refl.
  destruct (Hr _ _ E). by apply Hq.
Qed.
Lemma hx_loadL a rk (Q : QH (lnode V)) h : rok rk h -> (forall l, Q l rk h) -> hx rk (hloadL a) Q h.
Proof. intros Hr Hq. unfold gx, hloadL. destruct (h_leaves h !! a); exists rk; split_and!; auto using agree_refl. Qed.
Lemma rok_store rk h a n : rok rk h -> a < h_next h -> below rk (h_next h) (rk a) n -> rok rk (set_nodes h (<[a := n]> (h_nodes h))).
Proof.
  intros Hr Ha Hb x m. cbn. destruct (decide (x = a)) as [->|Hne].
  - rewrite lookup_insert. intros [= <-]. done.
  - rewrite lookup_insert_ne by done. apply Hr.
Qed.
Lemma hx_storeN a n rk (Q : QH unit) h : rok rk h -> a < h_next h -> below rk (h_next h) (rk a) n -> (forall h', rok rk h' -> h_next h' = h_next h -> Q tt rk h') -> hx rk (hstoreN a n) Q h.
Proof. intros Hr Ha Hb Hq. exists rk. split_and!; auto using agree_refl, rok_store. Qed.
Lemma hx_storeL a l rk (Q : QH unit) h : rok rk h -> (forall h', rok rk h' -> h_next h' = h_next h -> Q tt rk h') -> hx rk (hstoreL a l) Q h.
Proof. intros Hr Hq. exists rk. split_and!; auto using agree_refl. Qed.
Lemma hx_makeChan rk (Q : QH chan) h : rok rk h -> (forall c h', rok rk h' -> h_next h' = h_next h -> Q c rk h') -> hx rk hmakeChan Q h.
Proof. intros Hr Hq. exists rk. split_and!; auto using agree_refl. Qed.
(** a new node gets the rank r *)
Lemma hx_allocN r n rk (Q : QH addr) h : rok rk h -> below rk (h_next h) r n ->
  (forall rk' h', agree rk rk' (h_next h) -> rok rk' h' -> h_next h' = S (h_next h) -> rk' (h_next h) = r -> Q (h_next h) rk' h') -> hx rk (hallocN n) Q h.
Proof.
  intros Hr Hb Hq. set (rk' := fun x => if decide (x = h_next h) then r else rk x).
  assert (A : agree rk rk' (h_next h)). { intros x Hx. unfold rk'. rewrite decide_False by lia. done. }
  assert (rk' (h_next h) = r) by (unfold rk'; by rewrite decide_True).
  assert (Hr' : rok rk' (mkH (<[h_next h:=n]> (h_nodes h)) (h_leaves h) (S (h_next h)) (h_nextch h) (h_closed h))).
  { intros x m. cbn. destruct (decide (x = h_next h)) as [->|Hne].
    - rewrite lookup_insert. intros [= <-]. split; [lia|]. eapply below_mono; [exact Hb|done|lia|lia].
    - rewrite lookup_insert_ne by done. intros E. destruct (Hr _ _ E) as [Hx Hm]. split; [lia|]. rewrite (A x) by done. eapply below_mono; [exact Hm|done|lia|lia]. }
  exists rk'. split_and!; auto. cbn. lia.
Qed.
Lemma hx_allocL l rk (Q : QH addr) h : rok rk h -> (forall h', rok rk h' -> h_next h' = S (h_next h) -> Q (h_next h) rk h') -> hx rk (hallocL l) Q h.
Proof.
  intros Hr Hq. exists rk. assert (rok rk (hallocL l h).2). { intros x m E. cbn in *. destruct (Hr _ _ E) as [Hx Hm]. split; [lia|]. eapply below_mono; [exact Hm|done|lia|lia]. }
  split_and!; auto using agree_refl. cbn. lia.
Qed.

(** ** Channels, copies *)
Lemma below_same rk nx k n n' : n_children n' = n_children n -> below rk nx k n -> below rk nx k n'.
Proof. unfold below. by intros ->. Qed.
Lemma hx_bindQ {A B} (m : HM A) (k : A -> HM B) rk (P : QH A) Q h : hx rk m P h ->
  (forall a rk' h', agree rk rk' (h_next h) -> h_next h <= h_next h' -> rok rk' h' -> P a rk' h' -> hx rk' (k a) Q h') -> hx rk (bind m k) Q h.
Proof. apply gx_use. Qed.
(** [hq m]: the rank stays *)
Definition hq {A} (m : HM A) : Prop := forall rk h, rok rk h -> hx rk m (fun _ rk' _ => rk' = rk) h.
Lemma hq_bind {A B} (m : HM A) (k : A -> HM B) : hq m -> (forall a, hq (k a)) -> hq (bind m k).
Proof. intros Hm Hk rk h Hr. eapply gx_use; [by apply Hm|]. intros a rk' h' _ _ Hr' ->. by apply Hk. Qed.
Lemma hq_ret {A} (a : A) : hq (ret a). Proof. intros rk h Hr. by apply gx_ret. Qed.
Lemma hq_panic {A} : hq (A:=A) panic. Proof. intros rk h Hr. by apply gx_panic. Qed.
Lemma hq_loadL a : hq (hloadL (V:=V) a). Proof. intros rk h Hr. by apply hx_loadL. Qed.
Lemma hq_loadN a : hq (hloadN (V:=V) a). Proof. intros rk h Hr. by apply hx_loadN. Qed.
Lemma hq_storeL a l : hq (hstoreL (V:=V) a l). Proof. intros rk h Hr. by apply hx_storeL. Qed.
Lemma hq_allocL l : hq (hallocL (V:=V) l). Proof. intros rk h Hr. by apply hx_allocL. Qed.
Lemma hq_makeChan : hq (hmakeChan (V:=V)). Proof. intros rk h Hr. by apply hx_makeChan. Qed.
Lemma hq_lift {A} (o : outcome A) : o <> NoFuel -> hq (lift o).
Proof. intros Hn rk h Hr. by apply gx_lift. Qed.
Lemma hq_getL a : hq (getMutateChL (V:=V) a).
Proof. unfold getMutateChL. apply hq_bind; [apply hq_loadL|]. intros l. destruct (l_ch l); [apply hq_ret|]. apply hq_bind; [apply hq_makeChan|]. intros c. apply hq_bind; [apply hq_storeL|]. intros _. apply hq_ret. Qed.
Lemma hq_setL a c : hq (setMutateChL (V:=V) a c).
Proof. unfold setMutateChL. apply hq_bind; [apply hq_loadL|]. intros l. apply hq_storeL. Qed.
Lemma hq_getN a : hq (getMutateChN (V:=V) a).
Proof.
  intros rk h Hr. unfold getMutateChN. apply gx_bind. apply hx_loadN; [done|]. intros n E Ha Hb _ _ _. destruct (n_ch n); [by apply gx_ret|].
  apply gx_bind. apply hx_makeChan; [done|]. intros c h' Hr' En _ _ _. apply gx_bind.
  apply hx_storeN; [done|lia|rewrite En; by eapply below_same; [|exact Hb]|]. intros h'' Hr'' _ _ _ _. by apply gx_ret.
Qed.
Lemma hq_setN a c : hq (setMutateChN (V:=V) a c).
Proof.
  intros rk h Hr. unfold setMutateChN. apply gx_bind. apply hx_loadN; [done|]. intros n E Ha Hb _ _ _. apply hx_storeN; [done|lia|by eapply below_same; [|exact Hb]|done].
Qed.
Lemma hq_cloneL a b : hq (cloneL (V:=V) a b).
Proof.
  unfold cloneL. apply hq_bind. { destruct b; [|apply hq_ret]. apply hq_bind; [apply hq_getL|]. intros c. apply hq_ret. }
  intros c. apply hq_bind; [apply hq_loadL|]. intros l. apply hq_allocL.
Qed.
Lemma hx_cloneN a b rk h : rok rk h -> a < h_next h -> hx rk (cloneN a b) (fun a' rk' h' => h_next h <= a' < h_next h' /\ rk' a' = rk a) h.
Proof.
  intros Hr Ha. unfold cloneN. eapply gx_use with (P := fun _ rk' _ => rk' = rk).
  { destruct b; [|by apply gx_ret]. eapply gx_use; [by apply hq_getN|]. intros c rk' h' _ _ Hr' ->. by apply gx_ret. }
  intros c rk' h' _ L1 Hr' ->. apply gx_bind. apply hx_loadN; [done|]. intros n E _ Hb _ _ _.
  eapply (hx_allocN (rk a)); [done|by eapply below_same; [|exact Hb]|]. intros rk2 h2 A2 Hr2 En Ek. split; [lia|done].
Qed.

(** ** Transaction level *)
Definition rq {A} (m : TM A) : Prop := forall rk s, rst rk s -> rx rk m (fun _ rk' _ => rk' = rk) s.
Lemma rq_bind {A B} (m : TM A) (k : A -> TM B) : rq m -> (forall a, rq (k a)) -> rq (bind m k).
Proof. intros Hm Hk rk h Hr. eapply gx_use; [by apply Hm|]. intros a rk' h' _ _ Hr' ->. by apply Hk. Qed.
Lemma rq_ret {A} (a : A) : rq (ret a). Proof. intros rk h Hr. by apply gx_ret. Qed.
Lemma rq_panic {A} : rq (A:=A) panic. Proof. intros rk h Hr. by apply gx_panic. Qed.
Lemma rq_lift {A} (o : outcome A) : o <> NoFuel -> rq (lift o).
Proof. intros Hn rk h Hr. by apply gx_lift. Qed.
Lemma rq_liftH {A} (m : HM A) : hq m -> rq (liftH m).
Proof. intros Hm rk s Hr. apply rx_liftH; [done|]. eapply gx_mono; [apply Hm, Hr|]. auto. Qed.
Lemma rq_getT : rq (getT (V:=V)). Proof. intros rk s Hr. exists rk. split_and!; auto using agree_refl. Qed.
Lemma rq_getH : rq (getH (V:=V)). Proof. intros rk s Hr. exists rk. split_and!; auto using agree_refl. Qed.
Lemma rq_byteAt k i : rq (byteAt (V:=V) k i).
Proof. unfold byteAt. destruct (k !! i); [apply rq_ret|apply rq_panic]. Qed.
Lemma rq_loadL a : rq (loadL (V:=V) a). Proof. apply rq_liftH, hq_loadL. Qed.
Lemma rq_loadN a : rq (loadN (V:=V) a). Proof. apply rq_liftH, hq_loadN. Qed.
Lemma rq_storeL a l : rq (storeL (V:=V) a l). Proof. apply rq_liftH, hq_storeL. Qed.
(** changes of the transaction that keep the root *)
Lemma rq_modT (f : txn -> txn) : (forall t, t_root (f t) = t_root t) -> rq (let! t := getT in putT (V:=V) (f t)).
Proof. intros Hf rk s [Hr Ht]. exists rk. unfold bind, getT, putT, Ns. cbn. split_and!; auto using agree_refl. split; cbn; [done|]. by rewrite Hf. Qed.
Lemma rq_nextId : rq (nextId (V:=V)).
Proof. intros rk s [Hr Ht]. exists rk. unfold nextId, bind, getT, putT, ret, Ns. cbn. split_and!; auto using agree_refl. split; cbn; done. Qed.
Lemma rq_addTracked c : rq (addTracked (V:=V) c).
Proof. apply (rq_modT (fun t => set_t_chs t (t_chs t ++ [c]))). done. Qed.
Lemma rq_live {A} (f : st V -> A) : rq (fun s => (Ok (f s), s)).
Proof. intros rk s Hr. exists rk. split_and!; auto using agree_refl. Qed.
Hint Resolve rq_ret rq_panic rq_getT rq_getH rq_byteAt rq_loadL rq_loadN rq_storeL rq_nextId rq_addTracked rq_live hq_getL hq_setL hq_getN hq_setN hq_cloneL hq_allocL hq_makeChan nf_checkPrefix nf_findChild : rqdb.
Ltac rqs :=
  repeat first
    [ solve [auto with rqdb]
    | match goal with
      | |- rq (bind _ _) => apply rq_bind; [|intros ?]
      | |- rq (if ?b then _ else _) => destruct b
      | |- rq (match ?x with _ => _ end) => destruct x
      | |- rq (liftH _) => apply rq_liftH
      | |- rq (lift _) => apply rq_lift
      end ].
Lemma rq_trackN a : rq (trackN (V:=V) a). Proof. unfold trackN. rqs. Qed.
Lemma rq_trackL a : rq (trackL (V:=V) a). Proof. unfold trackL. rqs. Qed.
Hint Resolve rq_trackN rq_trackL : rqdb.
Lemma rq_trackOptL a : rq (trackOptL (V:=V) a). Proof. unfold trackOptL. rqs. Qed.
Lemma rq_trackAllN l : rq (trackAllN (V:=V) l). Proof. induction l; cbn [trackAllN]; rqs. Qed.
Lemma rq_writeLeaf a b : rq (writeLeaf (V:=V) a b). Proof. unfold writeLeaf. rqs. Qed.
Lemma rq_allocLeaf : rq (allocLeaf (V:=V)). Proof. unfold allocLeaf. rqs. Qed.
Lemma rq_setKV l k v : rq (setKV (V:=V) l k v). Proof. unfold setKV. rqs. Qed.
Hint Resolve rq_trackOptL rq_trackAllN rq_writeLeaf rq_allocLeaf rq_setKV : rqdb.

Lemma rx_loadN a rk (Q : QS inode) s : rst rk s -> (forall n, h_nodes (s_h s) !! a = Some n -> a < Ns s -> below rk (Ns s) (rk a) n -> Q n rk s) -> rx rk (loadN a) Q s.
Proof. intros Hr Hq. apply rx_liftH; [done|]. apply hx_loadN; [apply Hr|]. intros n E Ha Hb _. destruct s. by apply Hq. Qed.
Lemma rx_storeN a n rk (Q : QS unit) s : rst rk s -> a < Ns s -> below rk (Ns s) (rk a) n -> (forall s', rst rk s' -> Ns s' = Ns s -> Q tt rk s') -> rx rk (storeN a n) Q s.
Proof. intros Hr Ha Hb Hq. apply rx_liftH; [done|]. apply hx_storeN; [apply Hr|done..|]. intros h' Hr' En Hs. by apply Hq. Qed.
Lemma rx_updN a f rk (Q : QS unit) s : rst rk s -> (forall n, f n <> NoFuel) ->
  (forall n n', a < Ns s -> below rk (Ns s) (rk a) n -> f n = Ok n' -> below rk (Ns s) (rk a) n') ->
  (forall s', rst rk s' -> Ns s' = Ns s -> Q tt rk s') -> rx rk (updN a f) Q s.
Proof.
  intros Hr Hf Hb Hq. unfold updN. apply gx_bind. apply rx_loadN; [done|]. intros n E Ha Hn _ _ _. apply gx_bind. apply gx_lift; [done|done|]. intros n' En _ _ _.
  apply rx_storeN; [done|done|by eapply Hb|done].
Qed.
(** updates that keep the children *)
Lemma rq_updN a f : (forall n, f n <> NoFuel) -> (forall n n', f n = Ok n' -> n_children n' = n_children n) -> rq (updN (V:=V) a f).
Proof. intros Hf Hk rk s Hr. apply rx_updN; [done|done| |done]. intros n n' _ Hb E. eapply below_same; [|exact Hb]. by apply Hk. Qed.
Lemma rq_setNodeLeaf a l : rq (setNodeLeaf (V:=V) a l).
Proof. apply rq_updN; [done|]. by intros n n' [= <-]. Qed.
Lemma rq_copyPartial a p : rq (copyPartial (V:=V) a p).
Proof. apply rq_updN; [done|]. by intros n n' [= <-]. Qed.
Lemma rq_setPlen a (k : nat) : rq (updN (V:=V) a (fun n => Ok (set_plen n k))).
Proof. apply rq_updN; [done|]. by intros n n' [= <-]. Qed.
Lemma rq_copyHeader a n : rq (updN (V:=V) a (fun d => copyHeader d n)).
Proof. apply rq_updN; [intros; apply nf_copyHeader|]. intros m n'. unfold copyHeader. destruct (_ && _); [|done]. by intros [= <-]. Qed.
Hint Resolve rq_setNodeLeaf rq_copyPartial rq_setPlen rq_copyHeader : rqdb.
Lemma rq_moveLeaf a l : rq (moveLeaf (V:=V) a l). Proof. unfold moveLeaf. rqs. Qed.
Hint Resolve rq_moveLeaf : rqdb.

(** a quiet step in a program *)
Lemma rx_q {A B} (m : TM A) (k : A -> TM B) rk (Q : QS B) s : rq m -> rst rk s -> (forall a s', rst rk s' -> Ns s <= Ns s' -> rx rk (k a) Q s') -> rx rk (bind m k) Q s.
Proof. intros Hm Hr Hk. eapply gx_use; [by apply Hm|]. intros a rk' s' _ L Hr' ->. by apply Hk. Qed.

Ltac q1 := apply rx_q; [solve [rqs]|done|]; let a := fresh "a" in let s := fresh "s" in let Hr := fresh "Hr" in let L := fresh "L" in intros a s Hr L.
Ltac agm := intros ? ?; match goal with A : agree _ ?r _ |- ?r _ = _ => apply A end; lia.
Ltac u1 lem := eapply gx_use; [apply lem; first [done|lia|idtac]|]; let a := fresh "a" in let rk := fresh "rk" in let s := fresh "s" in let A := fresh "A" in
  let Hr := fresh "Hr" in let L := fresh "L" in let HP := fresh "HP" in intros a rk s A L Hr HP; cbn beta in HP.
Lemma rx_allocNode r k rk s : rst rk s -> rx rk (allocNode k) (fun a rk' s' => Ns s <= a < Ns s' /\ rk' a = r) s.
Proof.
  intros Hr. unfold allocNode. apply rx_q; [apply rq_nextId|done|]. intros i s1 Hr1 L1. apply rx_liftH; [done|].
  apply (hx_allocN r); [apply Hr1| |]. { unfold below. cbn. apply Forall_replicate. done. }
  intros rk' h' A1 Hr' En Ek Hst. unfold Ns in *. cbn. split; [lia|done].
Qed.
Lemma rx_makeLeaf r k v rk s : rst rk s -> rx rk (makeLeaf k v) (fun a rk' s' => Ns s <= a < Ns s' /\ rk' a = r) s.
Proof.
  intros Hr. unfold makeLeaf. do 4 q1. eapply gx_use; [by apply (rx_allocNode r)|].
  intros n rk' s' A1 L1' Hr' [L2' Ek]. do 2 q1.
  apply rx_q; [|done|]. { apply rq_updN; [done|]. by intros ? ? [= <-]. } intros _ s2' Hr2' L3'. apply gx_ret; [done|]. split; [lia|done].
Qed.
Lemma rx_writeNode a b rk s : rst rk s -> a < Ns s -> rx rk (writeNode a b) (fun a' rk' s' => (a' = a \/ Ns s <= a') /\ a' < Ns s' /\ rk' a' = rk a) s.
Proof.
  intros Hr Ha. unfold writeNode. apply rx_q; [rqs|done|]. intros _ s1 Hr1 L1. do 2 q1. destruct (Nat.ltb _ _).
  - apply gx_ret; [done|]. split_and!; [by left|lia|done].
  - eapply gx_use with (P := fun a' rk' s' => Ns s1 <= a' < Ns s' /\ rk' a' = rk a).
    { apply rx_liftH; [done|]. eapply gx_mono; [apply hx_cloneN; [by apply Hr2|unfold Ns in *; lia]|]. intros a' rk' h' _ _ _ [L' Ek] _. unfold Ns in *. cbn. split; [lia|done]. }
    intros a' rk' s' A L' Hr' [L2' Ek]. apply rx_q; [rqs|done|]. intros i s4 Hr4 L4. apply gx_bind. apply rx_loadN; [done|]. intros n En _ Hb _ _ _.
    apply gx_bind. apply rx_storeN; [done|lia|by eapply below_same; [|exact Hb]|]. intros s5 Hr5 L5 _ _ _. apply gx_ret; [done|]. split_and!; [right; lia|lia|done].
Qed.

(** ** addChild *)
Definition bP rk (nx k : nat) (o : option addr) : Prop := match o with Some b => b < nx /\ rk b < k | None => True end.
Lemma below_kp rk nx k n n' : keeps (bP rk nx k) n n' -> below rk nx k n -> below rk nx k n'.
Proof. intros (_ & _ & Hk). exact Hk. Qed.
Lemma nf_fill48 l : forall d n, fill48 d n l <> NoFuel.
Proof. induction l as [|x l IH]; intros d n; cbn [fill48]; [done|]. apply nf_bind; [apply nf_getKeyAtIdx|]. intros k _. apply nf_bind; [apply nf_setKeyAtIdx|]. intros ? _. apply IH. Qed.
Lemma nf_fill256 l : forall d n, fill256 d n l <> NoFuel.
Proof.
  induction l as [|x l IH]; intros d n; cbn [fill256]; [done|]. apply nf_bind; [apply nf_getKeyAtIdx|]. intros k _. destruct (Nat.eqb _ _); [apply IH|].
  apply nf_bind; [apply nf_getChild|]. intros ? _. apply nf_bind; [apply nf_setChildN|]. intros ? _. apply IH.
Qed.
Lemma nf_insertSorted n c x : insertSorted n c x <> NoFuel.
Proof. unfold insertSorted. apply nf_bind; [apply nf_setKeyAtIdx|]. intros ? _. apply nf_bind; [apply nf_setChildN|]. done. Qed.
Lemma nf_free_slot cs : forall p, free_slot cs p <> NoFuel.
Proof. induction cs as [|[c|] cs IH]; intros p; cbn [free_slot]; [done|apply IH|done]. Qed.
Lemma nf_insert48 n c x : insert48 n c x <> NoFuel.
Proof. unfold insert48. apply nf_bind; [apply nf_free_slot|]. intros ? _. apply nf_bind; [apply nf_setChildN|]. intros ? _. apply nf_bind; [apply nf_setKeyAtIdx|]. done. Qed.
Lemma nf_insert256 n c x : insert256 n c x <> NoFuel.
Proof. apply nf_setChildN. Qed.
Lemma rx_updK a f rk s : rst rk s -> (forall n, f n <> NoFuel) -> (forall n n', f n = Ok n' -> keeps (bP rk (Ns s) (rk a)) n n') ->
  rx rk (updN a f) (fun _ rk' _ => rk' = rk) s.
Proof. intros Hr Hf Hk. apply rx_updN; [done|done| |done]. intros n n' _ Hb E. eapply below_kp; [|exact Hb]. by apply Hk. Qed.
Definition addpost rk (a : addr) (s : st V) (a' : addr) rk' (s' : st V) : Prop := (a' = a \/ Ns s <= a') /\ a' < Ns s' /\ rk' a' = rk a.
Lemma rx_addChild256 a c x rk s : rst rk s -> a < Ns s -> x < Ns s -> rk x < rk a -> rx rk (addChild256 a c x) (addpost rk a s) s.
Proof.
  intros Hr Ha Hx Hk. unfold addChild256. apply gx_bind. apply rx_updN; [done|intros; apply nf_insert256| |].
  - intros n n' _ Hb E. eapply below_kp; [|exact Hb]. by eapply kp_insert256.
  - intros s1 Hr1 E1 _ _ _. apply gx_ret; [done|]. split_and!; [by left|lia|done].
Qed.
Lemma rx_addChild48 a c x rk s : rst rk s -> a < Ns s -> x < Ns s -> rk x < rk a -> rx rk (addChild48 a c x) (addpost rk a s) s.
Proof.
  intros Hr Ha Hx Hk. unfold addChild48. apply gx_bind. apply rx_loadN; [done|]. intros n En _ Hn _ _ _. destruct (Nat.ltb _ _).
  - apply gx_bind. apply rx_updN; [done|intros; apply nf_insert48| |].
    + intros m n' _ Hb E. eapply below_kp; [|exact Hb]. by eapply kp_insert48.
    + intros s1 Hr1 E1 _ _ _. apply gx_ret; [done|]. split_and!; [by left|lia|done].
  - u1 (rx_allocNode (rk a)). destruct HP as [HL HE]. q1. apply gx_bind. apply rx_updN; [done|intros; apply nf_fill256| |].
    { intros d d' _ Hb E. eapply below_kp; [|exact Hb]. eapply kp_fill256; [done|done|]. rewrite HE. eapply below_mono; [exact Hn|done|lia|lia]. }
    intros s2 Hr2 L2 _ _ _. q1. eapply gx_mono; [apply rx_addChild256; [done|lia|lia|]|].
    + rewrite HE, (A x) by lia. done.
    + intros a' rk' s' _ _ _ (H1 & H2 & H3). split_and!; [right; lia|lia|congruence].
Qed.
Lemma F_bP_mono rk rk' nx nx' k k' l : Forall (bP rk nx k) l -> agree rk rk' nx -> nx <= nx' -> k <= k' -> Forall (bP rk' nx' k') l.
Proof. intros Hb A L1 L2. eapply Forall_impl; [exact Hb|]. intros [b|]; [|done]. intros [Hb1 Hb2]. cbn. rewrite (A b) by done. lia. Qed.
Lemma rx_copyKids nn n i rk s : rst rk s -> below rk (Ns s) (rk nn) n ->
  rx rk (updN nn (fun d => Ok (set_children d (go_copy (n_children d) 0 (take i (n_children n)))))) (fun _ rk' s' => rk' = rk) s.
Proof.
  intros Hr Hn. apply rx_updN; [done|done| |done]. intros d d' _ Hb [= <-]. unfold below in *. cbn. apply F_go_copy; [done|]. by apply Forall_take.
Qed.
Lemma rx_addChild16 a c x rk s : rst rk s -> a < Ns s -> x < Ns s -> rk x < rk a -> rx rk (addChild16 a c x) (addpost rk a s) s.
Proof.
  intros Hr Ha Hx Hk. unfold addChild16. apply gx_bind. apply rx_loadN; [done|]. intros n En _ Hn _ _ _. destruct (Nat.ltb _ _).
  - apply gx_bind. apply rx_updN; [done|intros; apply nf_insertSorted| |].
    + intros m n' _ Hb E. eapply below_kp; [|exact Hb]. by eapply kp_insertSorted.
    + intros s1 Hr1 E1 _ _ _. apply gx_ret; [done|]. split_and!; [by left|lia|done].
  - u1 (rx_allocNode (rk a)). destruct HP as [HL HE]. q1.
    eapply gx_use; [apply rx_copyKids; [done|rewrite HE; eapply below_mono; [exact Hn|done|lia|lia]]|]. intros [] rk2 s2 _ L2 Hr2 ->.
    eapply gx_use; [apply rx_updK; [done|intros; apply nf_fill48|intros d d'; apply kp_fill48]|]. intros [] rk3 s3 _ L3 Hr3 ->. q1. eapply gx_mono; [apply rx_addChild48; [done|lia|lia|]|].
    + rewrite HE, (A x) by lia. done.
    + intros a' rk' s' _ _ _ (H1 & H2 & H3). split_and!; [right; lia|lia|congruence].
Qed.
Lemma rx_addChild4 a c x rk s : rst rk s -> a < Ns s -> x < Ns s -> rk x < rk a -> rx rk (addChild4 a c x) (addpost rk a s) s.
Proof.
  intros Hr Ha Hx Hk. unfold addChild4. apply gx_bind. apply rx_loadN; [done|]. intros n En _ Hn _ _ _. destruct (Nat.ltb _ _).
  - apply gx_bind. apply rx_updN; [done|intros; apply nf_insertSorted| |].
    + intros m n' _ Hb E. eapply below_kp; [|exact Hb]. by eapply kp_insertSorted.
    + intros s1 Hr1 E1 _ _ _. apply gx_ret; [done|]. split_and!; [by left|lia|done].
  - u1 (rx_allocNode (rk a)). destruct HP as [HL HE]. q1.
    eapply gx_use; [apply rx_copyKids; [done|rewrite HE; eapply below_mono; [exact Hn|done|lia|lia]]|]. intros [] rk2 s2 _ L2 Hr2 ->.
    apply rx_q; [|done|]. { apply rq_updN; [done|]. by intros ? ? [= <-]. } intros [] s3 Hr3 L3. q1. eapply gx_mono; [apply rx_addChild16; [done|lia|lia|]|].
    + rewrite HE, (A x) by lia. done.
    + intros a' rk' s' _ _ _ (H1 & H2 & H3). split_and!; [right; lia|lia|congruence].
Qed.
Lemma rx_addChild a c x rk s : rst rk s -> a < Ns s -> x < Ns s -> rk x < rk a -> rx rk (addChild a c x) (addpost rk a s) s.
Proof.
  intros Hr Ha Hx Hk. unfold addChild. apply gx_bind. apply rx_loadN; [done|]. intros n En _ Hn _ _ _. destruct (n_kind n).
  - by apply rx_addChild4.
  - by apply rx_addChild16.
  - by apply rx_addChild48.
  - by apply rx_addChild256.
Qed.

(** ** removeChild *)
Definition rempost rk (a : addr) (a' : addr) rk' (s' : st V) : Prop := a' < Ns s' /\ rk' a' <= rk a.
Lemma rx_setChild a i c rk s : rst rk s -> bP rk (Ns s) (rk a) c -> rx rk (setChild a i c) (fun _ rk' _ => rk' = rk) s.
Proof. intros Hr Hc. apply rx_updK; [done|intros; apply nf_setChildN|]. intros n n' E. by eapply kp_setChildN. Qed.
Lemma below_removeSorted rk nx k n c l n' : removeSorted n c = Ok (l, n') -> below rk nx k n -> below rk nx k n'.
Proof. intros E Hb. eapply below_kp; [|exact Hb]. by eapply kp_removeSorted. Qed.
Lemma rx_removeChild4 a c rk s : rst rk s -> a < Ns s -> rx rk (removeChild4 a c) (rempost rk a) s.
Proof.
  intros Hr Ha. unfold removeChild4. apply gx_bind. apply rx_loadN; [done|]. intros n En _ Hn _ _ _. apply gx_bind. apply gx_lift; [done|apply nf_removeSorted|].
  intros [st n1] E _ _ _. q1. q1. apply gx_bind. apply rx_storeN; [done|lia| |].
  { eapply below_same; [|eapply below_removeSorted; [exact E|]]; [done|]. eapply below_mono; [exact Hn|done|lia|lia]. }
  intros s2 Hr2 L2 _ _ _. apply gx_bind. apply rx_loadN; [done|]. intros m Em _ Hm _ _ _. destruct (_ && _); [|apply gx_ret; [done|]; split; [lia|done]].
  apply gx_bind. apply gx_lift; [done|apply nf_getChild|]. intros [ch|] Ech _ _ _; [|by apply gx_panic].
  assert (Hch : bP rk (Ns s2) (rk a) (Some ch)) by (eapply P_getChild; [|exact Ech|exact Hm]; done). destruct Hch as [Hc1 Hc2].
  u1 rx_writeNode. destruct HP as (_ & HL & HE). apply gx_bind. apply rx_loadN; [done|]. intros n2 En2 _ Hn2 _ _ _. apply gx_bind. apply rx_loadN; [done|].
  intros ch2 Ec2 _ Hc _ _ _. apply gx_bind. apply gx_lift; [done|apply nf_mergePrefix|]. intros [part child'] Em2 _ _ _.
  apply gx_bind. apply rx_storeN; [done|lia|by eapply below_same; [|exact Hn2]|]. intros s4 Hr4 L4 _ _ _.
  apply gx_bind. apply rx_storeN; [done|lia| |]. { rewrite L4. eapply below_kp; [|exact Hc]. by eapply kp_mergePrefix. }
  intros s5 Hr5 L5 _ _ _. q1. apply gx_ret; [done|]. split; [lia|]. rewrite HE. lia.
Qed.
Lemma rx_removeChild16 a c rk s : rst rk s -> a < Ns s -> rx rk (removeChild16 a c) (rempost rk a) s.
Proof.
  intros Hr Ha. unfold removeChild16. apply gx_bind. apply rx_loadN; [done|]. intros n En _ Hn _ _ _. apply gx_bind. apply gx_lift; [done|apply nf_removeSorted|].
  intros [st n1] E _ _ _. q1. q1. apply gx_bind. apply rx_storeN; [done|lia| |].
  { eapply below_same; [|eapply below_removeSorted; [exact E|]]; [done|]. eapply below_mono; [exact Hn|done|lia|lia]. }
  intros s2 Hr2 L2 _ _ _. apply gx_bind. apply rx_loadN; [done|]. intros m Em _ Hm _ _ _. destruct (Nat.eqb _ _); [|apply gx_ret; [done|]; split; [lia|done]].
  q1. u1 (rx_allocNode (rk a)). destruct HP as [HL HE]. q1. apply rx_q; [|done|]. { apply rq_updN; [done|]. by intros ? ? [= <-]. } intros [] s3' Hr3' L3'.
  eapply gx_use; [apply rx_copyKids; [done|rewrite HE; eapply below_mono; [exact Hm|agm|lia|lia]]|]. intros [] rk2 s4' _ L4' Hr4' ->. q1. q1.
  apply gx_ret; [done|]. split; [lia|]. rewrite HE. lia.
Qed.
Lemma rx_removeChild48 a c rk s : rst rk s -> a < Ns s -> rx rk (removeChild48 a c) (rempost rk a) s.
Proof.
  intros Hr Ha. unfold removeChild48. q1. apply gx_bind. apply gx_lift; [done|apply nf_getKeyAtIdx|]. intros pos _ _ _ _.
  eapply gx_use; [apply rx_updK; [done|intros; apply nf_setKeyAtIdx|intros d d'; apply kp_setKeyAtIdx]|]. intros [] rk1 s1 _ L1 Hr1 ->.
  apply gx_bind. apply gx_lift; [done|apply nf_getChild|]. intros old _ _ _ _. q1.
  eapply gx_use; [apply rx_updK; [done|intros; apply nf_setChildN|intros d d' E; by eapply kp_setChildN]|]. intros [] rk3 s3 _ L3 Hr3 ->.
  apply rx_q; [|done|]. { apply rq_updN; [done|]. by intros ? ? [= <-]. } intros [] s4 Hr4 L4.
  apply gx_bind. apply rx_loadN; [done|]. intros m Em _ Hm _ _ _. destruct (Nat.eqb _ _); [|apply gx_ret; [done|]; split; [lia|done]].
  u1 (rx_allocNode (rk a)). destruct HP as [HL HE]. q1. q1. q1.
  eapply gx_use; [apply rx_updK; [done|intros; apply nf_fill16|intros d d' E]|].
  { eapply kp_fill16; [done|exact E|]. rewrite HE. eapply F_bP_mono; [exact Hm|agm|lia|lia]. }
  intros [] rk6 s6' _ L6' Hr6' ->. apply gx_ret; [done|]. split; [lia|]. rewrite HE. lia.
Qed.
Lemma rx_removeChild256 a c rk s : rst rk s -> a < Ns s -> rx rk (removeChild256 a c) (rempost rk a) s.
Proof.
  intros Hr Ha. unfold removeChild256.
  eapply gx_use; [apply rx_updK; [done|intros; apply nf_setChildN|intros d d' E; by eapply kp_setChildN]|]. intros [] rk3 s3 _ L3 Hr3 ->.
  apply rx_q; [|done|]. { apply rq_updN; [done|]. by intros ? ? [= <-]. } intros [] s4 Hr4 L4.
  apply gx_bind. apply rx_loadN; [done|]. intros m Em _ Hm _ _ _. destruct (Nat.eqb _ _); [|apply gx_ret; [done|]; split; [lia|done]].
  u1 (rx_allocNode (rk a)). destruct HP as [HL HE]. q1. q1. q1.
  eapply gx_use; [apply rx_updK; [done|intros; apply nf_fill48from256|intros d d' E]|].
  { eapply kp_fill48from256; [done|exact E|]. rewrite HE. eapply F_bP_mono; [exact Hm|agm|lia|lia]. }
  intros [] rk6 s6' _ L6' Hr6' ->. apply gx_ret; [done|]. split; [lia|]. rewrite HE. lia.
Qed.
Lemma rx_removeChild a c rk s : rst rk s -> a < Ns s -> rx rk (removeChild a c) (rempost rk a) s.
Proof.
  intros Hr Ha. unfold removeChild. apply gx_bind. apply rx_loadN; [done|]. intros n En _ Hn _ _ _. destruct (n_kind n).
  - by apply rx_removeChild4.
  - by apply rx_removeChild16.
  - by apply rx_removeChild48.
  - by apply rx_removeChild256.
Qed.

(** ** Small ranks: the number of allocated addresses of lower rank *)
Definition cr rk (nx x : nat) : nat := length (filter (fun y => rk y < rk x) (seq 0 nx)).
Lemma cr_le rk nx x : cr rk nx x <= nx.
Proof. unfold cr. etrans; [apply filter_length|]. by rewrite seq_length. Qed.
Lemma cr_lt rk nx b x : b < nx -> rk b < rk x -> cr rk nx b < cr rk nx x.
Proof.
  intros Hb Hk. unfold cr. set (l1 := filter (fun y => rk y < rk b) (seq 0 nx)). set (l2 := filter (fun y => rk y < rk x) (seq 0 nx)).
  assert (Hs : b :: l1 ⊆+ l2).
  { apply NoDup_submseteq.
    - constructor; [|apply NoDup_filter, NoDup_seq]. intros E. apply elem_of_list_filter in E as [E _]. lia.
    - intros y Hy. apply elem_of_cons in Hy as [->|Hy]; apply elem_of_list_filter; [split; [done|apply elem_of_seq; lia]|].
      apply elem_of_list_filter in Hy as [Hy1 Hy2]. split; [lia|done]. }
  apply submseteq_length in Hs. cbn in Hs. lia.
Qed.
Lemma below_impl rk rk' nx k k' n : below rk nx k n -> (forall b, b < nx -> rk b < k -> rk' b < k') -> below rk' nx k' n.
Proof. intros Hb Hi. eapply Forall_impl; [exact Hb|]. intros [b|]; [|done]. intros [H1 H2]. split; [done|]. by apply Hi. Qed.
Lemma rok_cr rk h : rok rk h -> rok (cr rk (h_next h)) h.
Proof.
  intros Hr x n E. destruct (Hr x n E) as [Hx Hb]. split; [done|]. eapply below_impl; [exact Hb|]. intros b Hb1 Hb2. by apply cr_lt.
Qed.
Lemma bP_minChild rk nx k n c : below rk nx k n -> minChild n = Ok c -> bP rk nx k c.
Proof.
  intros Hb. unfold minChild. assert (H256 : forall l, Forall (bP rk nx k) l -> bP rk nx k (first_child256 l)).
  { induction l as [|[x|] l IH]; cbn; intros HF; [done|by inversion HF|]. inversion HF; auto. }
  destruct (n_kind n).
  1,2: intros E; by eapply P_getChild.
  - destruct (getKeyAtIdx _ _) as [i| |]; [|done..]. cbn. destruct (Nat.ltb _ _); intros E; [by eapply P_getChild|by injection E as <-].
  - intros [= <-]. by apply H256.
Qed.
Lemma bP_maxChild rk nx k n c : below rk nx k n -> maxChild n = Ok c -> bP rk nx k c.
Proof.
  intros Hb. unfold maxChild. assert (H256 : forall l, Forall (bP rk nx k) l -> bP rk nx k (first_child256 l)).
  { induction l as [|[x|] l IH]; cbn; intros HF; [done|by inversion HF|]. inversion HF; auto. }
  destruct (n_kind n).
  1,2: intros E; by eapply P_getChild.
  - destruct (Nat.ltb _ _); [|done]. destruct (getKeyAtIdx _ _) as [i| |]; [|done..]. cbn. destruct (Nat.ltb _ _); intros E; [by eapply P_getChild|by injection E as <-].
  - intros [= <-]. apply H256. by apply Forall_reverse.
Qed.
Lemma nf_minChild n : minChild n <> NoFuel.
Proof. unfold minChild. destruct (n_kind n); [apply nf_getChild..| |done]. apply nf_bind; [apply nf_getKeyAtIdx|]. intros k _. destruct (Nat.ltb _ _); [apply nf_getChild|done]. Qed.
Lemma nf_maxChild n : maxChild n <> NoFuel.
Proof. unfold maxChild. destruct (n_kind n); [apply nf_getChild..| |done]. destruct (Nat.ltb _ _); [|done]. apply nf_bind; [apply nf_getKeyAtIdx|]. intros k _. destruct (Nat.ltb _ _); [apply nf_getChild|done]. Qed.
Lemma nf_minimum_rk rk h : rok rk h -> forall f a, rk a < f -> minimum f h (Some a) <> NoFuel.
Proof.
  intros Hr. induction f as [|f IH]; intros a Ha; [lia|]. cbn [minimum]. destruct (h_nodes h !! a) as [n|] eqn:E; [|done].
  destruct (isLeafN n); [done|]. destruct (n_leaf n); [done|]. apply nf_bind; [apply nf_minChild|]. intros [c|] Ec; [|done]. apply IH.
  destruct (Hr _ _ E) as [_ Hb]. destruct (bP_minChild _ _ _ _ _ Hb Ec). lia.
Qed.
Lemma nf_maximum_rk rk h : rok rk h -> forall f a, rk a < f -> maximum f h (Some a) <> NoFuel.
Proof.
  intros Hr. induction f as [|f IH]; intros a Ha; [lia|]. cbn [maximum]. destruct (h_nodes h !! a) as [n|] eqn:E; [|done].
  destruct (isLeafN n); [done|]. apply nf_bind; [apply nf_maxChild|]. intros [c|] Ec; [|done]. apply IH.
  destruct (Hr _ _ E) as [_ Hb]. destruct (bP_maxChild _ _ _ _ _ Hb Ec). lia.
Qed.
Lemma nf_minimum rk h a : rok rk h -> minimum (walk_fuel h) h (Some a) <> NoFuel.
Proof. intros Hr. eapply nf_minimum_rk; [by apply rok_cr|]. unfold walk_fuel. pose proof (cr_le rk (h_next h) a). lia. Qed.
Lemma nf_maximum rk h a : rok rk h -> maximum (walk_fuel h) h (Some a) <> NoFuel.
Proof. intros Hr. eapply nf_maximum_rk; [by apply rok_cr|]. unfold walk_fuel. pose proof (cr_le rk (h_next h) a). lia. Qed.
Lemma nf_cmp f : forall i m p k d, cmp_loop f i m p k d <> NoFuel.
Proof. induction f as [|f IH]; intros i m p k d; cbn [cmp_loop]; [done|]. destruct (Nat.ltb _ _); [|done]. destruct (p !! i), (k !! (d + i)); try done. destruct (Nat.eqb _ _); [apply IH|done]. Qed.
Lemma nf_prefixMismatch rk h a n key depth : rok rk h -> prefixMismatch h a n key depth <> NoFuel.
Proof.
  intros Hr. unfold prefixMismatch. apply nf_bind; [apply nf_cmp|]. intros idx _. destruct (Nat.ltb _ _); [done|]. destruct (Nat.ltb _ _); [|done].
  apply nf_bind; [by eapply nf_minimum|]. intros [la|] _; [|done]. destruct (h_leaves h !! la); [apply nf_cmp|done].
Qed.
Lemma nf_lcp k1 k2 d : longestCommonPrefix k1 k2 d <> NoFuel.
Proof. apply nf_cmp. Qed.

(** ** Insert *)
(** steps that only read *)
Definition rp {A} (m : TM A) : Prop := forall s, (m s).2 = s /\ (m s).1 <> NoFuel.
Lemma rx_p {A B} (m : TM A) (k : A -> TM B) rk (Q : QS B) s : rp m -> rst rk s -> (forall a, m s = (Ok a, s) -> rx rk (k a) Q s) -> rx rk (bind m k) Q s.
Proof.
  intros Hm Hr Hk. specialize (Hm s) as [Hm Hn]. apply gx_bind. unfold gx. destruct (m s) as [[a| |] s'] eqn:E; cbn in *; subst s'; [| |done].
  - exists rk. split_and!; auto using agree_refl. intros _ _ _. by apply Hk.
  - exists rk. split_and!; auto using agree_refl.
Qed.
Lemma rp_getT : rp (getT (V:=V)). Proof. done. Qed.
Lemma rp_getH : rp (getH (V:=V)). Proof. done. Qed.
Lemma rp_loadN a : rp (loadN (V:=V) a).
Proof. intros [h t]. unfold loadN, liftH, hloadN. cbn. by destruct (h_nodes h !! a). Qed.
Lemma rp_loadL a : rp (loadL (V:=V) a).
Proof. intros [h t]. unfold loadL, liftH, hloadL. cbn. by destruct (h_leaves h !! a). Qed.
Lemma rp_byteAt k i : rp (byteAt (V:=V) k i).
Proof. intros s. unfold byteAt. by destruct (k !! i). Qed.
Lemma rp_lift {A} (o : outcome A) : o <> NoFuel -> rp (lift o).
Proof. intros Hn s. by destruct o. Qed.
Lemma rp_ret {A} (a : A) : rp (ret a). Proof. done. Qed.
Lemma rp_bind {A B} (m : TM A) (k : A -> TM B) : rp m -> (forall a, rp (k a)) -> rp (bind m k).
Proof. intros Hm Hk s. unfold bind. destruct (Hm s) as [E1 E2]. destruct (m s) as [[a| |] s']; cbn in *; subst; [apply Hk|done..]. Qed.
Lemma loadN_inv a (s : st V) n : loadN a s = (Ok n, s) -> h_nodes (s_h s) !! a = Some n.
Proof. unfold loadN, liftH, hloadN. destruct (h_nodes (s_h s) !! a); [|done]. by intros [= -> _]. Qed.
Lemma lift_inv {S A} (o : outcome A) (s : S) a : lift o s = (Ok a, s) -> o = Ok a.
Proof. unfold lift. by intros [= ->]. Qed.

Definition gap rk (s : st V) : Prop := rst rk s /\ (forall x, x < Ns s -> 1 <= rk x) /\
  forall x n, h_nodes (s_h s) !! x = Some n -> Forall (fun o => match o with Some b => b < Ns s /\ rk b + 3 <= rk x | None => True end) (n_children n).
Definition inspost rk (a : addr) (r : addr * V * bool * bool) rk' (s' : st V) : Prop := r.1.1.1 < Ns s' /\ rk' r.1.1.1 <= rk a + 2.
Ltac p1 := apply rx_p; [solve [auto using rp_getT, rp_getH, rp_loadN, rp_loadL, rp_byteAt, rp_ret]|done|]; let a := fresh "a" in let E := fresh "E" in intros a E.
Lemma gap_kid rk s a n c : gap rk s -> h_nodes (s_h s) !! a = Some n -> (exists b i, findChild n b = Ok (Some c, i)) -> c < Ns s /\ rk c + 3 <= rk a.
Proof.
  intros (_ & _ & G) E (b & i & Ef). eapply (P_findChild (fun o => match o with Some b => b < Ns s /\ rk b + 3 <= rk a | None => True end)) in Ef; [exact Ef|done|by apply G].
Qed.
(** the parent takes the new child *)
Lemma rx_relink a c idx c' (rk0 rk : nat -> nat) (mu : bool) n0 (s : st V) :
  n0 <= Ns s -> agree rk0 rk n0 -> a < n0 -> rst rk s -> c' < Ns s -> rk c' < rk0 a ->
  rx rk (if mu || negb (Nat.eqb c' c) then trackN a ;;; let! a := writeNode a false in setChild a idx (Some c') ;;; ret a else ret a)
     (fun a' rk' s' => a' < Ns s' /\ rk' a' = rk0 a) s.
Proof.
  intros L0 A0 Ha Hr Hc Hk. destruct (_ || _); [|apply gx_ret; [done|]; split; [lia|by apply A0]].
  q1. u1 rx_writeNode. destruct HP as (_ & HL & HE). eapply gx_use; [apply rx_setChild; [done|]|].
  - cbn. rewrite HE, (A0 a), (A c') by lia. lia.
  - intros [] rk2 s2 _ L2 Hr2 ->. apply gx_ret; [done|]. split; [lia|]. rewrite HE. by apply A0.
Qed.
Lemma rx_insert key v : forall d f a depth rk s, length key - depth <= d -> 2 * d + 2 <= f -> gap rk s -> a < Ns s ->
  rx rk (recursiveInsert f a key v depth) (inspost rk a) s.
Proof.
  assert (Hin : forall d, (forall f a depth rk s, length key - depth < d -> 2 * d <= f -> gap rk s -> a < Ns s -> rx rk (recursiveInsert f a key v depth) (inspost rk a) s) ->
    forall f a depth rk s, length key - depth <= d -> 2 * d + 1 <= f -> gap rk s -> a < Ns s -> rx rk (insertInner f a key v depth) (inspost rk a) s).
  { intros d IH [|f] a depth rk s Hd Hf G Ha; [lia|]. cbn [insertInner]. pose proof G as (Hr & G1 & G2). p1. apply loadN_inv in E. rename a0 into n.
    pose proof (G1 a Ha) as Ga. destruct (Nat.ltb 0 (n_plen n)).
    - p1. injection E0 as <-. apply rx_p; [apply rp_lift; eapply nf_prefixMismatch, Hr|done|]. intros pd _. destruct (Nat.leb (n_plen n) pd).
      + apply rx_p; [|done|]. { destruct (Nat.ltb _ _); [|apply rp_ret]. apply rp_bind; [apply rp_byteAt|]. intros c. apply rp_lift, nf_findChild. }
        intros [[child|] idx] Ech.
        * assert (Hlt : depth + n_plen n < length key) by (destruct (Nat.ltb_spec (depth + n_plen n) (length key)); done).
          rewrite (proj2 (Nat.ltb_lt _ _) Hlt) in Ech. unfold bind, byteAt in Ech. destruct (key !! (depth + n_plen n)) as [c|]; [|done]. cbn in Ech.
          apply lift_inv in Ech. destruct (gap_kid rk s a n child G E ltac:(eauto)) as [Hc1 Hc2].
          eapply gx_use; [apply IH; [lia|lia|done|done]|]. intros [[[nc val] mu] old] rk1 s1 A1 L1 Hr1 [HP1 HP2]. cbn in HP1, HP2.
          eapply gx_use; [eapply (rx_relink _ _ _ _ rk _ _ (Ns s)); [done|done|done|done|done|lia]|].
          intros a' rk2 s2 _ _ Hr2 [HL HE]. apply gx_ret; [done|]. split; cbn; [done|lia].
        * u1 (rx_makeLeaf 0). destruct HP as [HL HE]. q1. destruct a1.
          { q1. u1 rx_writeNode. u1 (rx_allocNode 0). by apply gx_panic. }
          q1. u1 rx_writeNode. destruct HP as (HN & HL2 & HE2). eapply gx_use with (P := fun a' rk' s' => a' < Ns s' /\ rk' a' = rk a).
          { assert (HK : rk1 a2 = rk a) by (rewrite HE2; by apply A). destruct (Nat.ltb _ _); [|by apply gx_ret]. q1.
            eapply gx_mono; [apply rx_addChild; [done|lia|lia|]|].
            - rewrite HK, (A0 a0), HE by lia. lia.
            - intros a' rk' s' _ _ _ (_ & ? & ?). split; [done|congruence]. }
          intros a' rk' s' _ _ Hr' [? ?]. apply gx_ret; [done|]. split; cbn; [done|lia].
      + (* a new node above a *)
        u1 (rx_allocNode (rk a + 1)). destruct HP as [HL HE]. rename a0 into nn. q1. q1. q1. u1 rx_writeNode. destruct HP as (HN & HL2 & HE2). rename a3 into a'.
        assert (HKa : rk1 a' = rk a) by (rewrite HE2; by apply A). assert (HKn : rk1 nn = rk a + 1) by (rewrite (A0 nn) by lia; done).
        q1. eapply gx_use with (P := fun nn' rk' s' => nn' < Ns s' /\ rk' nn' = rk a + 1).
        { destruct (Nat.leb _ _).
          - q1. u1 rx_addChild. destruct HP as (_ & HL3 & HE3). q1. q1. apply gx_ret; [done|]. split; [lia|]. congruence.
          - q1. p1. injection E0 as <-. apply rx_p; [apply rp_lift; eapply nf_minimum, Hr6|done|]. intros [la|] _; [|by apply gx_panic]. q1. q1.
            u1 rx_addChild. destruct HP as (_ & HL3 & HE3). q1. apply gx_ret; [done|]. split; [lia|]. congruence. }
        intros nn' rk3 s7 A3 L7 Hr7' [HL3 HE3]. u1 (rx_makeLeaf 0). destruct HP as [HL4 HE4].
        eapply gx_use with (P := fun nn' rk' s' => nn' < Ns s' /\ rk' nn' = rk a + 1).
        { destruct (Nat.ltb _ _); [|apply gx_ret; [done|]; split; [lia|rewrite (A1 nn') by lia; done]]. q1. eapply gx_mono; [apply rx_addChild; [done|lia|lia|]|].
          - rewrite HE4, (A1 nn'), HE3 by lia. lia.
          - intros a'' rk' s' _ _ _ (_ & ? & Hx). split; [done|]. rewrite Hx, (A1 nn') by lia. done. }
        intros a'' rk' s' _ _ Hr' [? ?]. apply gx_ret; [done|]. split; cbn; [done|lia].
    - p1. rename a0 into c. apply rx_p; [apply rp_lift, nf_findChild|done|]. intros [[child|] idx] Ech.
      + apply lift_inv in Ech. destruct (gap_kid rk s a n child G E ltac:(eauto)) as [Hc1 Hc2]. apply byteAt_Ok in E0.
        eapply gx_use; [apply IH; [lia|lia|done|done]|]. intros [[[nc val] mu] old] rk1 s1 A1 L1 Hr1 [HP1 HP2]. cbn in HP1, HP2.
        eapply gx_use; [eapply (rx_relink _ _ _ _ rk _ _ (Ns s)); [done|done|done|done|done|lia]|].
        intros a' rk2 s2 _ _ Hr2 [HL HE]. apply gx_ret; [done|]. split; cbn; [done|lia].
      + u1 (rx_makeLeaf 0). destruct HP as [HL HE]. destruct (Nat.ltb _ _); [|apply gx_ret; [done|]; split; cbn; [lia|rewrite (A a) by lia; lia]].
        q1. u1 rx_writeNode. destruct HP as (HN & HL2 & HE2). assert (HK : rk1 a2 = rk a) by (rewrite HE2; by apply A).
        eapply gx_use; [apply rx_addChild; [done|lia|lia|]|]. { rewrite HK, (A0 a0), HE by lia. lia. }
        intros a' rk' s' _ _ Hr' (_ & ? & ?). apply gx_ret; [done|]. split; cbn; [done|lia]. }
  assert (Hout : forall d, (forall f a depth rk s, length key - depth < d -> 2 * d <= f -> gap rk s -> a < Ns s -> rx rk (recursiveInsert f a key v depth) (inspost rk a) s) ->
    forall f a depth rk s, length key - depth <= d -> 2 * d + 2 <= f -> gap rk s -> a < Ns s -> rx rk (recursiveInsert f a key v depth) (inspost rk a) s).
  { intros d IH [|f] a depth rk s Hd Hf G Ha; [lia|]. cbn [recursiveInsert]. pose proof G as (Hr & G1 & G2). pose proof (G1 a Ha) as Ga. p1. destruct (_ =? _)%N.
    { u1 rx_writeNode. destruct HP as (_ & HL & HE). q1. q1. q1. apply gx_ret; [done|]. split; cbn; [lia|lia]. }
    p1. apply loadN_inv in E0. rename a1 into n. destruct (n_leaf n) as [la|] eqn:El; [|apply (Hin d IH); [done|lia|done|done]].
    p1. destruct (isLeafN n) eqn:Eleaf.
    - destruct (_ && _).
      { u1 rx_writeNode. destruct HP as (_ & HL & HE). q1. q1. q1. apply gx_ret; [done|]. split; cbn; [lia|lia]. }
      u1 (rx_makeLeaf 0). destruct HP as [HLl HEl]. rename a2 into nl2. q1. q1. u1 rx_writeNode. destruct HP as (HN & HL2 & HE2). rename a4 into a'.
      assert (HKa : rk1 a' = rk a) by (rewrite HE2; by apply A). assert (HKl : rk1 nl2 = 0) by (rewrite (A0 nl2) by lia; done).
      apply rx_p; [apply rp_lift, nf_lcp|done|]. intros lp _. u1 (rx_allocNode (rk a + 1)). destruct HP as [HLn HEn]. rename a4 into nn.
      assert (HKa2 : rk2 a' = rk a) by (rewrite (A1 a') by lia; done). assert (HKl2 : rk2 nl2 = 0) by (rewrite (A1 nl2) by lia; done). q1. q1.
      eapply gx_use with (P := fun nn' rk' s' => nn' < Ns s' /\ rk' nn' = rk a + 1).
      { destruct (has_prefix _ _); [q1; q1; q1|destruct (has_prefix _ _); [q1; q1|]].
        - eapply gx_mono; [apply rx_addChild; [done|lia..]|]. intros x rk' s' _ _ _ (_ & ? & ?). split; [done|congruence].
        - eapply gx_mono; [apply rx_addChild; [done|lia..]|]. intros x rk' s' _ _ _ (_ & ? & ?). split; [done|congruence].
        - eapply gx_use with (P := fun nn' rk' s' => nn' < Ns s' /\ rk' nn' = rk a + 1).
          { destruct (Nat.ltb _ _); [|apply gx_ret; [done|]; split; [lia|done]]. q1.
            eapply gx_mono; [apply rx_addChild; [done|lia..]|]. intros x rk' s' _ _ _ (_ & ? & ?). split; [done|congruence]. }
          intros x rk' s' A' L' Hr' [H1 H2]. destruct (Nat.ltb _ _); [|by apply gx_ret]. q1.
          assert (rk' nl2 = 0) by (rewrite (A' nl2) by lia; done).
          eapply gx_mono; [apply rx_addChild; [done|lia..]|]. intros y rk'' s'' _ _ _ (_ & ? & ?). split; [done|congruence]. }
      intros x rk' s' _ _ Hr' [? ?]. apply gx_ret; [done|]. split; cbn; lia.
    - destruct (leafMatches _ _); [|apply (Hin d IH); [done|lia|done|done]].
      q1. q1. q1. u1 rx_writeNode. destruct HP as (_ & HL & HE). q1. apply gx_ret; [done|]. split; cbn; lia. }
  induction d as [|d IH]; intros f a depth rk s Hd Hf G Ha.
  - apply (Hout 0); [intros; lia|done..].
  - apply (Hout (S d)); [|done..]. intros f' a' depth' rk' s' Hd' Hf' G' Ha'. apply IH; [lia|lia|done|done].
Qed.
Lemma gap_scale rk s : rst rk s -> gap (fun x => 3 * rk x + 1) s.
Proof.
  intros [Hr Ht]. assert (Hb : forall x n, h_nodes (s_h s) !! x = Some n -> Forall (fun o => match o with Some b => b < Ns s /\ 3 * rk b + 1 + 3 <= 3 * rk x + 1 | None => True end) (n_children n)).
  { intros x n E. destruct (Hr x n E) as [_ Hb]. eapply Forall_impl; [exact Hb|]. intros [b|]; [|done]. intros [H1 H2]. split; [exact H1|lia]. }
  split_and!; [|intros; lia|exact Hb]. split; [|exact Ht]. intros x n E. split; [by apply (Hr x n E)|]. eapply Forall_impl; [by apply Hb|]. intros [b|]; [|done]. intros [H1 H2]. split; [exact H1|lia].
Qed.
(** the invariant without the rank *)
Definition ranked (h : heap V) : Prop := exists rk, rok rk h.
Definition wx {A} (m : TM A) (s : st V) : Prop :=
  (m s).1 <> NoFuel /\ ranked (s_h (m s).2) /\ Ns s <= Ns (m s).2 /\ t_root (s_t (m s).2) < Ns (m s).2.
Lemma wx_intro {A} rk (m : TM A) Q s : rx rk m Q s -> wx m s.
Proof.
  unfold gx, wx. destruct (m s) as [[a| |] s']; [| |done].
  - intros (rk' & _ & L & [Hr Ht] & _). split_and!; [done|by exists rk'|done|done].
  - intros (rk' & _ & L & [Hr Ht]). split_and!; [done|by exists rk'|done|done].
Qed.
Lemma rx_putRoot t rk (Q : QS unit) s : rst rk s -> t_root t < Ns s -> (forall s', rst rk s' -> Ns s' = Ns s -> Q tt rk s') -> rx rk (putT t) Q s.
Proof. intros [Hr Ht] Hl Hq. exists rk. assert (rst rk (mkS (s_h s) t)) by by split. split_and!; auto using agree_refl. Qed.
Lemma wx_txnInsert k v s : ranked (s_h s) -> t_root (s_t s) < Ns s -> wx (txnInsert k v) s.
Proof.
  intros [rk Hr] Ht. set (rk1 := fun x => 3 * rk x + 1). assert (G : gap rk1 s) by by apply gap_scale. pose proof G as (Hr1 & _). clearbody rk1.
  apply (wx_intro rk1 _ (fun _ _ _ => True)). unfold txnInsert. p1. injection E as <-.
  eapply gx_use; [eapply (rx_insert _ _ (length (getTreeKey k))); [lia|unfold insert_fuel; lia|done|done]|].
  intros [[[nr ov] mu] old] rk2 s2 _ L2 Hr2 [HP _]. cbn in HP. p1. apply gx_bind. apply rx_putRoot; [done|destruct old; done|]. intros s3 Hr3 _ _ _ _. by apply gx_ret.
Qed.

(** ** Delete *)
Definition delpost rk (a : addr) (o : option addr) rk' (s' : st V) : Prop := match o with Some a' => a' < Ns s' /\ rk' a' <= rk a | None => True end.
Lemma rx_delete key : forall f a depth rk s, length key - depth < f -> rst rk s -> a < Ns s ->
  rx rk (recursiveDelete f (Some a) key depth) (fun r rk' s' => delpost rk a r.1.1 rk' s') s.
Proof.
  induction f as [|f IH]; intros a depth rk s Hf Hr Ha; [lia|]. cbn [recursiveDelete]. apply gx_bind. apply rx_loadN; [done|]. intros n En _ Hb _ _ _.
  q1. destruct (_ && _); [by apply gx_ret|]. q1. destruct a1 as [nl|].
  - u1 rx_writeNode. destruct HP as (_ & HL & HE). q1. q1. destruct (Nat.ltb _ _); (apply gx_ret; [done|]); [|done]. split; cbn; lia.
  - q1. destruct a1; [apply gx_ret; [done|]; split; cbn; [lia|done]|].
    apply rx_p; [apply rp_byteAt|done|]. intros c Ec. apply byteAt_Ok in Ec. apply rx_p; [apply rp_lift, nf_findChild|done|].
    intros [[child|] idx] Ech; [|by apply gx_ret]. apply lift_inv in Ech. eapply (P_findChild (bP rk (Ns s) (rk a))) in Ech as [Hc1 Hc2]; [|done|exact Hb].
    eapply gx_use; [apply IH; [lia|done|lia]|]. intros [[nc val] mu] rk1 s3 A1 L3 Hr3 HP. cbn in HP.
    eapply gx_use with (P := fun a' rk' s' => a' < Ns s' /\ rk' a' <= rk a).
    { destruct (_ || _); [|apply gx_ret; [done|]; split; [lia|rewrite (A1 a) by lia; done]]. q1. u1 rx_writeNode. destruct HP0 as (_ & HL & HE).
      assert (HKa : rk0 a2 = rk a) by (rewrite HE; apply A1; lia). eapply gx_use; [apply rx_setChild; [done|]|].
      { destruct nc as [nc|]; [|done]. destruct HP as [HP1 HP2]. cbn. rewrite HKa, (A nc) by lia. lia. }
      intros [] rk3 s6 _ L6 Hr6 ->. destruct nc as [nc|].
      - apply gx_ret; [done|]. split; lia.
      - eapply gx_mono; [apply rx_removeChild; [done|lia]|]. intros a' rk' s' _ _ _ [? ?]. split; lia. }
    intros a' rk2 s4 A2 L4 Hr4 [H1 H2]. q1. destruct (Nat.eqb _ _); [destruct (is_some _)|]; (apply gx_ret; [done|]); try done; split; cbn; lia.
Qed.
Lemma rx_installEmptyRoot rk s : rst rk s -> rx rk installEmptyRoot (fun _ _ _ => True) s.
Proof.
  intros Hr. unfold installEmptyRoot. p1. q1. eapply gx_use with (P := fun r rk' s' => r < Ns s').
  { apply rx_liftH; [done|]. apply (hx_allocN 0); [apply Hr0|apply Forall_replicate; done|]. intros rk' h' _ _ En _ _. unfold Ns. cbn. lia. }
  intros r rk1 s1 _ _ Hr1 Hl. apply rx_putRoot; [done|done|done].
Qed.
Lemma rx_setRoot o rk s : rst rk s -> match o with Some r => r < Ns s | None => True end ->
  rx rk (match o with None => installEmptyRoot | Some r => let! t := getT in putT (set_t_root t r) end) (fun _ _ _ => True) s.
Proof. intros Hr Ho. destruct o as [r|]; [|by apply rx_installEmptyRoot]. p1. by apply rx_putRoot. Qed.
Lemma wx_txnDelete k s : ranked (s_h s) -> t_root (s_t s) < Ns s -> wx (txnDelete k) s.
Proof.
  intros [rk Hr] Ht. assert (Hr1 : rst rk s) by done. apply (wx_intro rk _ (fun _ _ _ => True)). unfold txnDelete. p1. injection E as <-.
  eapply gx_use; [eapply rx_delete; [unfold delete_fuel; lia|done|done]|]. intros [[nr l] mu] rk2 s2 _ L2 Hr2 HP. cbn in HP.
  eapply gx_use; [apply rx_setRoot; [done|by destruct nr; [destruct HP|]]|]. intros [] rk3 s3 _ L3 Hr3 _. destruct l as [x|]; [|by apply gx_ret].
  q1. q1. p1. injection E as <-. apply gx_bind. apply rx_putRoot; [done|apply Hr4|]. intros s5 Hr5 _ _ _ _. destruct x as [la|la]; [by apply gx_ret|]. q1. by apply gx_ret.
Qed.

(** ** DeletePrefix *)
Lemma nf_compact m : forall l n i j, compact_loop m n i j l <> NoFuel.
Proof.
  induction l as [|x l IH]; intros n i j; cbn [compact_loop]; [done|]. destruct (list_find _ m) as [[? [? [y|]]]|]; [|apply IH|].
  - apply nf_bind; [apply nf_setChildN|]. intros ? _. apply IH.
  - apply nf_bind; [apply nf_getChild|]. intros ? _. apply nf_bind; [apply nf_setChildN|]. intros ? _. apply IH.
Qed.
Lemma rx_deletePrefix key : forall f a depth rk s, rk a < f -> rst rk s -> a < Ns s ->
  rx rk (deletePrefix f (Some a) key depth) (fun r rk' s' => delpost rk a r.1 rk' s') s.
Proof.
  induction f as [|f IH]; intros a depth rk s Hf Hr Ha; [lia|]. cbn [deletePrefix]. apply gx_bind. apply rx_loadN; [done|]. intros n En _ Hb _ _ _.
  destruct (isLeafN n).
  { destruct (n_leaf n) as [la|]; [|apply gx_ret; [done|]; split; cbn; [lia|done]]. q1. destruct (has_prefix _ _); [|apply gx_ret; [done|]; split; cbn; [lia|done]].
    q1. q1. by apply gx_ret. }
  q1. rename a0 into dep. q1. rename a0 into nd.
  eapply gx_use with (P := fun p rk' s' => Forall (bP rk' (Ns s') (rk a)) p.1.*2).
  { match goal with |- gx _ _ _ (?L _ _ _ _) _ _ => assert (HL : forall chs rk s nd idx m k, k <= f -> rst rk s -> Forall (bP rk (Ns s) k) m.*2 -> Forall (bP rk (Ns s) k) chs ->
      rx rk (L chs idx m nd) (fun p rk' s' => Forall (bP rk' (Ns s') k) p.1.*2) s) end.
    { clear - IH. induction chs as [|[ch|] chs IHc]; intros rk s nd idx m k Hfk Hr Hm Hks.
      - by apply gx_ret.
      - apply Forall_cons in Hks as [[Hc1 Hc2] Hks]. eapply gx_use; [apply IH; [lia|done|done]|]. intros [nc del] rk1 s1 A1 L1 Hr1 HP. cbn in HP.
        q1. apply IHc; [done|done| |].
        + rewrite fmap_app. apply Forall_app. split; [eapply F_bP_mono; [exact Hm|agm|lia|lia]|]. constructor; [|done]. cbn. destruct nc as [nc|]; [|done]. destruct HP. cbn. lia.
        + eapply F_bP_mono; [exact Hks|agm|lia|lia].
      - apply Forall_cons in Hks as [_ Hks]. by apply IHc. }
    apply HL; [lia|done|by constructor|]. eapply F_bP_mono; [exact Hb|done|lia|lia]. }
  intros [m nd'] rk1 s2 A1 L2 Hr2 HP. cbn in HP. u1 rx_writeNode. destruct HP0 as (_ & HL & HE).
  assert (HKa : rk0 a0 = rk a) by (rewrite HE; apply A1; lia). apply gx_bind. apply rx_loadN; [done|]. intros n2 En2 _ Hb2 _ _ _.
  apply gx_bind. apply gx_lift; [done|apply nf_compact|]. intros [[n3 sl] nc] Ec _ _ _.
  apply gx_bind. apply rx_storeN; [done|lia| |].
  - unfold below. cbn. apply (F_clear (bP rk0 (Ns s3) (rk0 a0))); [done|]. assert (K : keeps (bP rk0 (Ns s3) (rk0 a0)) n2 n3).
    { eapply kp_compact; [done|exact Ec| |exact Hb2]. rewrite HKa. eapply F_bP_mono; [exact HP|agm|lia|lia]. }
    by apply K.
  - intros s4 Hr4 L4 _ _ _. apply gx_ret; [done|]. split; cbn; lia.
Qed.
Lemma wx_txnDeletePrefix k s : ranked (s_h s) -> t_root (s_t s) < Ns s -> wx (txnDeletePrefix k) s.
Proof.
  intros [rk0 Hr0] Ht. set (rk := cr rk0 (h_next (s_h s))). assert (Hr : rst rk s) by (split; [by apply rok_cr|done]).
  apply (wx_intro rk _ (fun _ _ _ => True)). unfold txnDeletePrefix. p1. injection E as <-. p1. injection E as <-.
  eapply gx_use; [eapply rx_deletePrefix; [|done|done]|]. { unfold walk_fuel, rk. pose proof (cr_le rk0 (h_next (s_h s)) (t_root (s_t s))). lia. }
  clearbody rk. intros [nr nd] rk2 s2 _ L2 Hr2 HP. cbn in HP.
  eapply gx_use; [apply rx_setRoot; [done|by destruct nr; [destruct HP|]]|]. intros [] rk3 s3 _ L3 Hr3 _. destruct (Nat.eqb _ _); [by apply gx_ret|].
  q1. q1. p1. injection E as <-. apply gx_bind. apply rx_putRoot; [done|apply Hr4|]. intros s5 Hr5' _ _ _ _. by apply gx_ret.
Qed.
End Rank.
