(** An update by a tracking transaction records the channels of the nodes on the path of its key. *)
From Verif Require Export Cells KeepN NodeCh ReadRep Delete3 Insert5.
From stdpp Require Import list.
Local Open Scope nat_scope.

(** ** What holds when a program returns *)
Section Okp.
Context {S : Type}.
Definition okp {A} (m : M S A) (s : S) (P : A -> S -> Prop) : Prop := forall a s', m s = (Ok a, s') -> P a s'.
Lemma okp_bind {A B} (m : M S A) (k : A -> M S B) s P : okp m s (fun a s' => okp (k a) s' P) -> okp (bind m k) s P.
Proof.
  intros Hm b s'. unfold bind. destruct (m s) as [[a| |] s1] eqn:E; [|done..]. apply (Hm _ _ E).
Qed.
Lemma okp_any {A B} (m : M S A) (k : A -> M S B) s P : (forall a s', okp (k a) s' P) -> okp (bind m k) s P.
Proof. intros Hk. apply okp_bind. intros a s' _. apply Hk. Qed.
Lemma okp_ret {A} (a : A) s (P : A -> S -> Prop) : P a s -> okp (ret a) s P.
Proof. by intros Hp b s' [= <- <-]. Qed.
Lemma okp_panic {A} s (P : A -> S -> Prop) : okp panic s P.
Proof. done. Qed.
Lemma okp_nofuel {A} s (P : A -> S -> Prop) : okp nofuel s P.
Proof. done. Qed.
Lemma okp_mono {A} (m : M S A) s (P Q : A -> S -> Prop) : okp m s P -> (forall a s', P a s' -> Q a s') -> okp m s Q.
Proof. intros Hm HPQ a s' E. by apply HPQ, Hm. Qed.
End Okp.

(** ** Insert always reports a mutation; what Delete returns *)
Section Flag.
Context {V : Type} `{GoZero V}.
Notation TM := (M (st V)).
Lemma okp_byteAt {B} k i (K : nat -> TM B) s P : (forall b, k !! i = Some b -> okp (K b) s P) -> okp (bind (byteAt k i) K) s P.
Proof. intros Hk. unfold byteAt. destruct (k !! i) as [b|]; [by apply Hk|]. apply okp_panic. Qed.
Ltac oa := repeat (apply okp_any; intros ??); first [by apply okp_ret|apply okp_panic].
Lemma insert_mutates key v fuel :
  (forall node depth s, okp (recursiveInsert (V:=V) fuel node key v depth) s (fun r _ => r.1.2 = true)) /\
  (forall node depth s, okp (insertInner (V:=V) fuel node key v depth) s (fun r _ => r.1.2 = true)).
Proof.
  induction fuel as [|fuel [IH1 IH2]]; (split; intros node depth s); [done|done| |].
  - cbn [recursiveInsert insertInner]. apply okp_any. intros t s1. destruct (_ =? 0)%N.
    { oa. }
    apply okp_any. intros n s2. destruct (n_leaf n) as [nodeLeaf|]; [|apply IH2]. apply okp_any. intros nl s3. destruct (isLeafN n); [|destruct (leafMatches _ _); [|apply IH2]].
    + cbv zeta. destruct (_ && _); oa.
    + oa.
  - cbn [recursiveInsert insertInner]. apply okp_any. intros n s1. destruct (Nat.ltb 0 (n_plen n)).
    + apply okp_any. intros h s2. apply okp_any. intros d s3. destruct (Nat.leb _ _).
      * cbv zeta. apply okp_any. intros [[child|] idx] s4.
        -- apply okp_bind. eapply okp_mono; [apply IH1|]. intros [[[newChild val] mu] old] s5 E. cbn in E. subst mu. apply okp_any. intros node' s6. by apply okp_ret.
        -- apply okp_any. intros newLeaf s5. apply okp_any. intros [] s6; oa.
      * oa.
    + apply okp_byteAt. intros c Hc. apply okp_any. intros [[child|] idx] s4.
      * apply okp_bind. eapply okp_mono; [apply IH1|]. intros [[[newChild val] mu] old] s5 E. cbn in E. subst mu. apply okp_any. intros node' s6. by apply okp_ret.
      * apply okp_any. intros newLeaf s5. apply lookup_lt_Some in Hc. rewrite (proj2 (Nat.ltb_lt _ _)) by done. oa.
Qed.
End Flag.

(** ** A node's channel is recorded or stays with the node *)
Section NT.
Context {V : Type} `{GoZero V} (c : chan).
Notation TM := (M (st V)).
Notation pvt := (pv (fun _ _ => True)).
Notation nd s := (h_nodes (s_h s)).
Notation lv s := (h_leaves (s_h s)).
Definition rec (s : st V) : Prop := c ∈ t_chs (s_t s).
Definition NT (x : addr) (s : st V) : Prop := t_track (s_t s) = true /\ (rec s \/ UNh x c (s_h s)).
Lemma NT_t x : forall (h : heap V) t t', t_track t' = t_track t -> (forall c, c ∈ t_chs t -> c ∈ t_chs t') -> NT x (mkS h t) -> NT x (mkS h t').
Proof. intros h t t' E Hc [H1 [H2|H2]]; (split; cbn in *; [congruence|]); [left; by apply Hc|by right]. Qed.
Lemma NT_n x : forall (h h' : heap V) t, h_nodes h' = h_nodes h -> h_next h <= h_next h' -> h_nextch h <= h_nextch h' -> NT x (mkS h t) -> NT x (mkS h' t).
Proof. intros h h' t E1 E2 E3 [H1 [H2|H2]]; (split; [done|]); [by left|right]. by eapply UN_n. Qed.
Lemma NT_al x : forall (h : heap V) t n, n_ch n = None -> NT x (mkS h t) ->
  NT x (mkS (mkH (<[h_next h := n]> (h_nodes h)) (h_leaves h) (S (h_next h)) (h_nextch h) (h_closed h)) t).
Proof. intros h t n _ [H1 [H2|H2]]; (split; [done|]); [by left|right]. by apply UN_new. Qed.
Lemma NT_st x : forall (h : heap V) t a n n', h_nodes h !! a = Some n -> n_ch n' = n_ch n -> NT x (mkS h t) ->
  NT x (mkS (mkH (<[a := n']> (h_nodes h)) (h_leaves h) (h_next h) (h_nextch h) (h_closed h)) t).
Proof. intros h t a n n' E1 E2 [H1 [H2|H2]]; (split; [done|]); [by left|right]. by eapply UN_st. Qed.
Lemma NT_cloneN x a b : nv (NT x) (liftH (cloneN (V:=V) a b)).
Proof.
  intros [h t] [H1 H2]. unfold liftH. cbn [s_h s_t] in *. pose proof (UN_cl x c a b h) as Hcl. destruct (cloneN a b h) as [o h']. cbn in *.
  split; [done|]. destruct H2 as [H2|H2]; [by left|right; auto].
Qed.
Lemma trackN_rec x s : NT x s -> rec (trackN (V:=V) x s).2.
Proof.
  intros [Ht [Hr|(Hlt & n & Hn & Hc)]].
  - destruct (pv_trackN (fun _ _ => True) x s) as [_ _ _ (ex & E & _)]. unfold rec in *. rewrite E. apply elem_of_app. by left.
  - erewrite trackN_on by done. cbn. unfold rec. cbn. rewrite Hc. cbn. apply elem_of_app. right. by apply elem_of_list_singleton.
Qed.
Lemma NT_trackN x a : nv (NT x) (trackN (V:=V) a).
Proof.
  intros s Hs. destruct (decide (a = x)) as [->|Hne].
  { destruct (pv_trackN (fun _ _ => True) x s) as [_ E1 _ _]. split; [rewrite E1; by destruct Hs|]. left. by apply trackN_rec. }
  destruct Hs as [Ht Hs]. destruct (nd s !! a) as [n|] eqn:Hn; [|rewrite trackN_none by done; by split]. erewrite trackN_on by done. split; [done|].
  destruct Hs as [Hs|(Hlt & n1 & Hn1 & Hc)]; [left; apply elem_of_app; by left|right]. cbn [snd s_h].
  unfold UNh, trackedN. split; [by destruct (n_ch n)|]. exists n1. destruct (n_ch n); cbn; by rewrite lookup_insert_ne.
Qed.
Lemma NT_insert x fuel node key v depth : nv (NT x) (recursiveInsert (V:=V) fuel node key v depth).
Proof. apply (nv_recursiveInsert (NT x) (NT_t x) (NT_n x) (NT_al x) (NT_st x) (NT_trackN x) (NT_cloneN x)). Qed.
Lemma NT_delete x fuel node key depth : nv (NT x) (recursiveDelete (V:=V) fuel node key depth).
Proof. apply (nv_recursiveDelete (NT x) (NT_t x) (NT_n x) (NT_al x) (NT_st x) (NT_trackN x) (NT_cloneN x)). Qed.
Lemma NT_makeLeaf x k v : nv (NT x) (makeLeaf (V:=V) k v).
Proof. apply (nv_makeLeaf (NT x) (NT_t x) (NT_n x) (NT_al x) (NT_st x)). Qed.
Lemma NT_allocNode x k : nv (NT x) (allocNode (V:=V) k).
Proof. apply (nv_allocNode (NT x) (NT_t x) (NT_al x)). Qed.
Lemma NT_updN x a f : kc f -> nv (NT x) (updN (V:=V) a f).
Proof. apply (nv_updN (NT x) (NT_n x) (NT_st x)). Qed.
Lemma NT_writeLeaf x a b : nv (NT x) (writeLeaf (V:=V) a b).
Proof. apply (nv_writeLeaf (NT x) (NT_t x) (NT_n x)). Qed.
Lemma NT_storeL x a l : nv (NT x) (storeL (V:=V) a l).
Proof. apply (nv_storeL (NT x) (NT_n x)). Qed.
Lemma NT_id x {A} (m : TM A) : (forall s, (m s).2 = s) -> nv (NT x) m.
Proof. intros Hm s Hs. by rewrite Hm. Qed.
Lemma NT_loadN x a : nv (NT x) (loadN (V:=V) a).
Proof. apply NT_id. intros s. unfold loadN, liftH, hloadN. destruct (nd s !! a); by destruct s. Qed.
Lemma NT_loadL x a : nv (NT x) (loadL (V:=V) a).
Proof. apply NT_id. intros s. unfold loadL, liftH, hloadL. destruct (lv s !! a); by destruct s. Qed.
Lemma NT_copyPartial x a p : nv (NT x) (copyPartial (V:=V) a p).
Proof. apply NT_updN. by apply kc_ok. Qed.

Lemma okp_nv {A B} x (m : TM A) (k : A -> TM B) s P : nv (NT x) m -> NT x s -> (forall a s', NT x s' -> okp (k a) s' P) -> okp (bind m k) s P.
Proof. intros Hm Hs Hk. apply okp_bind. intros a s' E. apply Hk. specialize (Hm s Hs). by rewrite E in Hm. Qed.
Lemma okp_pvt {A} (m : TM A) s : pvt m -> rec s -> okp m s (fun _ => rec).
Proof. intros Hm Hs a s' E. destruct (Hm s) as [_ _ _ (ex & E2 & _)]. rewrite E in E2. unfold rec in *. cbn in E2. rewrite E2. apply elem_of_app. by left. Qed.
Lemma okp_track {B} x (k : unit -> TM B) s : NT x s -> pvt (bind (trackN x) k) -> (forall a, pvt (k a)) -> okp (bind (trackN x) k) s (fun _ => rec).
Proof.
  intros Hs _ Hk. apply okp_bind. intros [] s' E. apply okp_pvt; [apply Hk|]. pose proof (trackN_rec x s Hs) as Hr. by rewrite E in Hr.
Qed.
Lemma okp_tr {B} x (k : unit -> TM B) s : NT x s -> (forall a, pvt (k a)) -> okp (bind (trackN x) k) s (fun _ => rec).
Proof.
  intros Hs Hk. apply okp_bind. intros [] s' E. apply okp_pvt; [apply Hk|]. pose proof (trackN_rec x s Hs) as Hr. by rewrite E in Hr.
Qed.
Lemma writeNode_rec x s a s' : NT x s -> writeNode (V:=V) x true s = (Ok a, s') -> rec s'.
Proof.
  intros Hs. unfold writeNode. revert a s'. apply okp_bind. intros [] s1 E1. apply okp_pvt.
  - intros s2. apply pv_bind; [apply pv_loadN|]. intros n s3. apply pr_getT. destruct (Nat.ltb _ _); [apply pv_ret|].
    apply pv_bind; [apply pv_liftH, hp_cloneN|]. intros a' s4. apply pv_bind; [apply pv_nextId|]. intros i s5. apply pv_bind; [apply pv_loadN|]. intros n' s6.
    apply pv_bind; [apply pv_storeN|]. intros [] s7. apply pv_ret.
  - revert s1 E1. enough (Hx : okp (trackN x ;;; (let! n := loadN x in trackOptL (n_leaf n))) s (fun _ => rec)) by (intros s1 E1; by apply (Hx tt)).
    apply okp_tr; [done|]. intros [] s2. apply pv_bind; [apply pv_loadN|]. intros n s3. apply pv_trackOptL.
Qed.
Lemma okp_wn {B} x (k : addr -> TM B) s : NT x s -> (forall a, pvt (k a)) -> okp (bind (writeNode x true) k) s (fun _ => rec).
Proof. intros Hs Hk. apply okp_bind. intros a s' E. apply okp_pvt; [apply Hk|]. by eapply writeNode_rec. Qed.


Ltac pvx :=
  repeat match goal with
  | |- forall _, _ => intro
  | |- pv _ (bind getT _) => let s := fresh in intros s; apply pr_getT; revert s
  | |- pv _ (bind _ _) => let s := fresh in intros s; apply pv_bind; [|intros]
  | |- pr _ _ _ => apply pv_pr
  | |- pv _ (if ?b then _ else _) => destruct b
  | |- pv _ (match ?x with _ => _ end) => destruct x
  | |- pv _ (let '(_, _) := ?x in _) => destruct x
  | |- pv _ (ret _) => apply pv_ret
  | |- pv _ panic => apply pv_panic
  | |- pv _ (loadN _) => apply pv_loadN
  | |- pv _ (loadL _) => apply pv_loadL
  | |- pv _ getH => intros ?; apply R_refl
  | |- pv _ (storeN _ _) => apply pv_storeN
  | |- pv _ nextId => apply pv_nextId
  | |- pv _ (lift _) => apply pv_lift
  | |- pv _ (byteAt _ _) => apply pv_byteAt
  | |- pv _ (liftH (cloneN _ _)) => apply pv_liftH, hp_cloneN
  | |- pv _ (liftH (cloneL _ _)) => apply pv_liftH, hp_cloneL
  | |- pv _ (trackN _) => apply pv_trackN
  | |- pv _ (trackL _) => apply pv_trackL
  | |- pv _ (writeNode _ _) => apply pv_writeNode
  | |- pv _ (writeLeaf _ _) => apply pv_writeLeaf
  | |- pv _ allocLeaf => apply pv_allocLeaf
  | |- pv _ (allocNode _) => apply pv_allocNode
  | |- pv _ (makeLeaf _ _) => by apply pv_makeLeaf
  | |- pv _ (updN _ _) => apply pv_updN
  | |- pv _ (copyPartial _ _) => apply pv_copyPartial
  | |- pv _ (addChild _ _ _) => apply pv_addChild
  | |- pv _ (setKV _ _ _) => by apply pv_setKV
  | |- pv _ (setNodeLeaf _ _) => apply pv_setNodeLeaf
  | |- pv _ (setChild _ _ _) => apply pv_setChild
  | |- pv _ (removeChild _ _) => apply pv_removeChild
  | |- pv _ (storeL _ _) => let s := fresh in intros s; apply pr_storeL; by right; right
  | |- pv _ (putT _) => fail 1
  end.
Ltac nt := first [apply NT_loadN|apply NT_loadL|apply NT_makeLeaf|apply NT_allocNode|apply NT_copyPartial|apply NT_insert|apply NT_delete|apply NT_writeLeaf|apply NT_storeL
  |apply NT_updN; by apply kc_ok|apply NT_id; done].

(** The node where an insert starts is recorded. *)
Lemma root_insert key v fuel :
  (forall x depth s, NT x s -> okp (recursiveInsert fuel x key v depth) s (fun _ => rec)) /\
  (forall x depth s, NT x s -> okp (insertInner fuel x key v depth) s (fun _ => rec)).
Proof.
  induction fuel as [|fuel [IH1 IH2]]; (split; intros x depth s Hs); [done|done| |].
  - cbn [recursiveInsert insertInner]. apply (okp_nv x); [nt|done|]. intros t s1 Hs1. destruct (_ =? 0)%N; [apply okp_wn; [done|]; pvx|].
    apply (okp_nv x); [nt|done|]. intros n s2 Hs2. destruct (n_leaf n) as [nodeLeaf|]; [|by apply IH2]. apply (okp_nv x); [nt|done|]. intros nl s3 Hs3.
    destruct (isLeafN n); [|destruct (leafMatches _ _); [|by apply IH2]].
    + cbv zeta. destruct (_ && _); [apply okp_wn; [done|]; pvx|]. apply (okp_nv x); [nt|done|]. intros newLeaf2 s4 Hs4. apply (okp_nv x); [nt|done|]. intros nl2 s5 Hs5.
      apply okp_tr; [done|]. pvx.
    + apply (okp_nv x); [nt|done|]. intros newLeaf s4 Hs4. apply (okp_nv x); [nt|done|]. intros y s5 Hs5. apply (okp_nv x); [nt|done|]. intros [] s6 Hs6.
      apply okp_wn; [done|]. pvx.
  - cbn [recursiveInsert insertInner]. apply (okp_nv x); [nt|done|]. intros n s1 Hs1. destruct (Nat.ltb 0 (n_plen n)).
    + apply (okp_nv x); [nt|done|]. intros h s2 Hs2. apply (okp_nv x); [nt|done|]. intros d s3 Hs3. destruct (Nat.leb _ _).
      * cbv zeta. apply (okp_nv x); [apply NT_id; intros s'; destruct (Nat.ltb _ _); [|done]; unfold bind, byteAt; by destruct (key !! _)|done|]. intros [[child|] idx] s4 Hs4.
        -- apply okp_bind. intros [[[newChild val] mu] old] s5 E. pose proof (proj1 (insert_mutates key v fuel) _ _ _ _ _ E) as Em. cbn in Em. subst mu. cbn [orb].
           change (recursiveInsert fuel child key v (depth + n_plen n + 1) s4 = (Ok (newChild, val, true, old), s5)) in E.
        pose proof (NT_insert x fuel child key v (depth + n_plen n + 1) s4 Hs4) as Hs5. rewrite E in Hs5.
           apply okp_bind. eapply okp_mono; [apply okp_tr; [exact Hs5|]; pvx|]. intros a s6 Hr. by apply okp_ret.
        -- apply (okp_nv x); [nt|done|]. intros newLeaf s5 Hs5. apply (okp_nv x); [|done|].
           { apply NT_id. intros s'. destruct (n_leaf n) as [nla|]; [|done]. unfold bind, loadL, liftH, hloadL. destruct (lv s' !! nla); by destruct s'. }
           intros [] s6 Hs6; (apply okp_tr; [done|]); pvx.
      * apply (okp_nv x); [nt|done|]. intros newNode s4 Hs4. apply (okp_nv x); [nt|done|]. intros [] s5 Hs5. apply (okp_nv x); [|done|].
        { intros s'. destruct (Nat.ltb _ _); [intros Hx; exact Hx|]. apply NT_copyPartial. }
        intros [] s6 Hs6. apply okp_tr; [done|]. pvx.
    + apply okp_byteAt. intros b Hb. apply (okp_nv x); [nt|done|]. intros [[child|] idx] s4 Hs4.
      * apply okp_bind. intros [[[newChild val] mu] old] s5 E. pose proof (proj1 (insert_mutates key v fuel) _ _ _ _ _ E) as Em. cbn in Em. subst mu. cbn [orb].
        change (recursiveInsert fuel child key v (depth + 1) s4 = (Ok (newChild, val, true, old), s5)) in E.
        pose proof (NT_insert x fuel child key v (depth + 1) s4 Hs4) as Hs5. rewrite E in Hs5.
        apply okp_bind. eapply okp_mono; [apply okp_tr; [exact Hs5|]; pvx|]. intros a s6 Hr. by apply okp_ret.
      * apply (okp_nv x); [nt|done|]. intros newLeaf s5 Hs5. apply lookup_lt_Some in Hb. rewrite (proj2 (Nat.ltb_lt _ _)) by done. apply okp_tr; [done|]. pvx.
Qed.
(** The node where a delete starts is recorded, if a leaf is removed. *)
Lemma root_delete key fuel : forall x depth s, NT x s ->
  okp (recursiveDelete fuel (Some x) key depth) s (fun r s' => is_Some r.1.2 -> rec s').
Proof.
  destruct fuel as [|fuel]; intros x depth s Hs; [done|]. cbn [recursiveDelete]. apply (okp_nv x); [nt|done|]. intros n s1 Hs1.
  assert (Hrest : forall s2, NT x s2 -> (isLeafN n = true -> rec s2) -> okp
    (if isLeafN n && leafMatches [] key then ret (None, Some (RN x), true) else
      let! hit := (match n_leaf n with
         | Some nodeL => let! nl := loadL nodeL in ret (if leafMatches (l_key nl) key then Some nodeL else None)
         | None => ret None end) in
      match hit with
      | Some nodeL => let! node := writeNode x true in setNodeLeaf node None ;;; let! n := loadN node in
          if Nat.ltb 0 (n_nch n) then ret (Some node, Some (RL nodeL), true) else ret (None, Some (RL nodeL), false)
      | None =>
          let! bail := (if Nat.ltb 0 (n_plen n) then let! prefixLen := lift (checkPrefix (n_partial n) (n_plen n) key depth) in
               ret (negb (Nat.eqb prefixLen (maxPrefixLen `min` n_plen n))) else ret false) in
          if bail then ret (Some x, None, false) else
          let depth := depth + n_plen n in
          let! c := byteAt key depth in
          let! '(child, idx) := lift (findChild n c) in
          match child with
          | None => ret (None, None, false)
          | Some child =>
              let! '(newChild, val, mutate) := recursiveDelete fuel (Some child) key (depth + 1) in
              let! node := (if negb (opt_addr_eqb newChild (Some child)) || is_some val then
                   trackN x ;;; let! node := writeNode x false in setChild node idx newChild ;;;
                   match newChild with None => removeChild node c | Some _ => ret node end
                 else ret x) in
              let! n := loadN node in
              if Nat.eqb (n_nch n) 0 then if is_some (n_leaf n) then ret (Some node, val, mutate) else ret (None, val, mutate)
              else ret (Some node, val, mutate)
          end
      end) s2 (fun r s' => is_Some r.1.2 -> rec s')).
  2:{ apply okp_bind. destruct (isLeafN n) eqn:El.
      - intros [] s2 E. apply Hrest; [|intros _].
        + pose proof (NT_trackN x x s1 Hs1) as Hx. by rewrite E in Hx.
        + pose proof (trackN_rec x s1 Hs1) as Hx. by rewrite E in Hx.
      - apply okp_ret. by apply Hrest. }
  intros s2 Hs2 Hl2. destruct (isLeafN n && leafMatches [] key) eqn:E0.
  { apply okp_ret. intros _. apply Hl2. by apply andb_true_iff in E0 as [-> _]. }
  apply (okp_nv x); [|done|].
  { apply NT_id. intros s'. destruct (n_leaf n) as [nla|]; [|done]. unfold bind, loadL, liftH, hloadL. destruct (lv s' !! nla); by destruct s'. }
  intros [nodeL|] s3 Hs3.
  - eapply okp_mono; [apply okp_wn; [exact Hs3|]; pvx|]. intros a s4 Hr _. done.
  - apply (okp_nv x); [|done|].
    { apply NT_id. intros s'. destruct (Nat.ltb _ _); [|done]. unfold bind, lift. by destruct (checkPrefix _ _ _ _). }
    intros bail s4 Hs4. destruct bail; [apply okp_ret; cbn; by intros [? ?]|]. cbv zeta. apply okp_byteAt. intros b Hb. apply (okp_nv x); [nt|done|].
    intros [[child|] idx] s5 Hs5; [|apply okp_ret; cbn; by intros [? ?]]. apply okp_bind. intros [[newChild val] mu] s6 E.
    pose proof (NT_delete x fuel (Some child) key (depth + n_plen n + 1) s5 Hs5) as Hs6. rewrite E in Hs6. cbn [snd] in Hs6.
    destruct val as [val|].
    + cbn [is_some]. rewrite orb_true_r. apply okp_bind. eapply okp_mono; [apply okp_tr; [exact Hs6|]; pvx|]. intros a s7 Hr.
      eapply okp_mono; [apply okp_pvt; [pvx|exact Hr]|]. done.
    + apply okp_any. intros node s7. apply okp_any. intros n' s8. destruct (Nat.eqb _ _); [destruct (is_some (n_leaf n'))|]; apply okp_ret; cbn; by intros [? ?].
Qed.
End NT.
