(** Reasoning rules for the channel-free programs: total-correctness triples, the memory effects of the
    primitives, node copies, fresh leaves, adding a child. *)
From Verif Require Export Search.
From stdpp Require Export list.
Local Open Scope nat_scope.

(** ** Weakest preconditions *)
Definition wp {S A} (m : M S A) (Q : A -> S -> Prop) (s : S) : Prop :=
  match m s with (Ok a, s') => Q a s' | _ => False end.

Lemma wp_elim {S A} (m : M S A) Q s : wp m Q s -> exists a s', m s = (Ok a, s') /\ Q a s'.
Proof. unfold wp. destruct (m s) as [[a| |] s']; [eauto|done..]. Qed.
Lemma wp_intro {S A} (m : M S A) (Q : A -> S -> Prop) s a s' : m s = (Ok a, s') -> Q a s' -> wp m Q s.
Proof. intros E HQ. unfold wp. by rewrite E. Qed.
Lemma wp_mono {S A} (m : M S A) (P Q : A -> S -> Prop) s : wp m P s -> (forall a s', P a s' -> Q a s') -> wp m Q s.
Proof. unfold wp. destruct (m s) as [[a| |] s']; auto. Qed.
Lemma wp_bind {S A B} (m : M S A) (k : A -> M S B) Q s : wp m (fun a s' => wp (k a) Q s') s -> wp (bind m k) Q s.
Proof. unfold wp, bind. destruct (m s) as [[a| |] s']; auto. Qed.
Lemma wp_ret {S A} (a : A) (Q : A -> S -> Prop) s : Q a s -> wp (ret a) Q s.
Proof. done. Qed.
Lemma wp_lift {S A} (o : outcome A) (Q : A -> S -> Prop) s a : o = Ok a -> Q a s -> wp (lift o) Q s.
Proof. intros -> ?. done. Qed.
(** Use a triple for the first part of a sequence. *)
Lemma wp_use {S A B} (m : M S A) (k : A -> M S B) P Q s :
  wp m P s -> (forall a s', P a s' -> wp (k a) Q s') -> wp (bind m k) Q s.
Proof. intros Hm Hk. apply wp_bind. eapply wp_mono; [exact Hm|exact Hk]. Qed.

Section Wp.
Context {V : Type} `{GoZero V} {D : KeyDom}.
Notation TM := (M (st V)).

Notation nd s := (h_nodes (s_h s)).
Notation lv s := (h_leaves (s_h s)).
Notation nx s := (h_next (s_h s)).

(** States after the primitive writes. *)
Definition stN (s : st V) (a : addr) (n : inode) : st V := mkS (set_nodes (s_h s) (<[a := n]> (nd s))) (s_t s).
Definition stL (s : st V) (a : addr) (l : lnode V) : st V := mkS (set_leaves (s_h s) (<[a := l]> (lv s))) (s_t s).
Definition alN (s : st V) (n : inode) : st V :=
  mkS (mkH (<[nx s := n]> (nd s)) (lv s) (S (nx s)) (h_nextch (s_h s)) (h_closed (s_h s))) (set_t_max (s_t s) (S (t_max (s_t s)))).
Definition alL (s : st V) (l : lnode V) : st V :=
  mkS (mkH (nd s) (<[nx s := l]> (lv s)) (S (nx s)) (h_nextch (s_h s)) (h_closed (s_h s))) (set_t_max (s_t s) (S (t_max (s_t s)))).
Definition stT (s : st V) (t : txn) : st V := mkS (s_h s) t.

Definition fresh_node (k : kind) (i : nat) : inode :=
  set_plen (set_partial (set_id (zero_node k) i) (replicate maxPrefixLen 0)) maxPrefixLen.

Lemma wp_getT (Q : txn -> st V -> Prop) s : Q (s_t s) s -> wp getT Q s.
Proof. done. Qed.
Lemma wp_putT t (Q : unit -> st V -> Prop) s : Q tt (stT s t) -> wp (putT t) Q s.
Proof. done. Qed.
Lemma wp_getH (Q : heap V -> st V -> Prop) s : Q (s_h s) s -> wp getH Q s.
Proof. done. Qed.
Lemma wp_loadN a n (Q : inode -> st V -> Prop) s : nd s !! a = Some n -> Q n s -> wp (loadN a) Q s.
Proof. intros E ?. unfold wp, loadN, liftH, hloadN. rewrite E. destruct s. done. Qed.
Lemma wp_loadL a l (Q : lnode V -> st V -> Prop) s : lv s !! a = Some l -> Q l s -> wp (loadL a) Q s.
Proof. intros E ?. unfold wp, loadL, liftH, hloadL. rewrite E. destruct s. done. Qed.
Lemma wp_storeN a n (Q : unit -> st V -> Prop) s : Q tt (stN s a n) -> wp (storeN a n) Q s.
Proof. done. Qed.
Lemma wp_storeL a l (Q : unit -> st V -> Prop) s : Q tt (stL s a l) -> wp (storeL a l) Q s.
Proof. done. Qed.
Lemma wp_updN a n n' f (Q : unit -> st V -> Prop) s :
  nd s !! a = Some n -> f n = Ok n' -> Q tt (stN s a n') -> wp (updN a f) Q s.
Proof.
  intros E Ef HQ. unfold updN. apply wp_bind. eapply wp_loadN; [done|]. apply wp_bind. by eapply wp_lift.
Qed.
Lemma wp_setNodeLeaf a n l (Q : unit -> st V -> Prop) s :
  nd s !! a = Some n -> Q tt (stN s a (set_leaf n l)) -> wp (setNodeLeaf a l) Q s.
Proof. intros. by eapply wp_updN. Qed.
Lemma wp_setChild a n n' i c (Q : unit -> st V -> Prop) s :
  nd s !! a = Some n -> setChildN n i c = Ok n' -> Q tt (stN s a n') -> wp (setChild a i c) Q s.
Proof. intros. by eapply wp_updN. Qed.
Lemma wp_copyPartial a n x (Q : unit -> st V -> Prop) s :
  nd s !! a = Some n -> Q tt (stN s a (set_partial n (go_copy (n_partial n) 0 x))) -> wp (copyPartial a x) Q s.
Proof. intros. by eapply wp_updN. Qed.
Lemma wp_byteAt k i b (Q : nat -> st V -> Prop) s : k !! i = Some b -> Q b s -> wp (byteAt k i) Q s.
Proof. intros E ?. unfold byteAt. by rewrite E. Qed.
Lemma wp_allocNode k (Q : addr -> st V -> Prop) s :
  Q (nx s) (alN s (fresh_node k (S (t_max (s_t s))))) -> wp (allocNode k) Q s.
Proof. done. Qed.
Lemma wp_allocLeafKV {B} k v (K : addr -> TM B) Q s :
  (forall i, wp (K (nx s)) Q (alL s (mkL i v k None))) ->
  wp (bind allocLeaf (fun l => bind (setKV l k v) (fun _ => K l))) Q s.
Proof.
  intros HK. specialize (HK (S (t_max (s_t s)))). unfold wp in *. unfold bind, allocLeaf, setKV, nextId, putT, getT, liftH, hallocL.
  cbn [bind s_h s_t]. unfold bind, ret, loadL, liftH, hloadL, storeL, liftH, hstoreL. cbn.
  rewrite lookup_insert. cbn. unfold alL in HK. cbn in HK. 
  match goal with |- context [K _ ?x] => match type of HK with context [K _ ?y] => replace x with y; [exact HK|] end end.
  destruct s as [[] ?]. cbn. unfold set_leaves. cbn. by rewrite insert_insert.
Qed.

(** ** Memory effects *)
Definition leafokL (h : heap V) (o : option addr) (P : bytes -> Prop) : Prop :=
  match o with None => True | Some la => la < h_next h /\ exists l, h_leaves h !! la = Some l /\ P (l_key l) end.

(** From s to s', among the cells allocated in s only those in X change; of the transaction only the id
    counter changes; the keys of the leaves of nodes stay. *)
Record upd (X : addr -> Prop) (s s' : st V) : Prop := mk_upd {
  upd_t : exists mx, s_t s' = set_t_max (s_t s) mx;
  upd_next : nx s <= nx s';
  upd_same : forall x, x < nx s -> ~ X x -> same_cell (s_h s) (s_h s') x;
  upd_ext : leaf_ext (s_h s) (s_h s') }.

Definition none : addr -> Prop := fun _ => False.

Lemma upd_refl X s : upd X s s.
Proof. split; [exists (t_max (s_t s)); by destruct (s_t s)|done|done|by intros c P]. Qed.
Lemma upd_trans X Y s0 s1 s2 : upd X s0 s1 -> upd Y s1 s2 -> (forall x, x < nx s0 -> Y x -> X x) -> upd X s0 s2.
Proof.
  intros [[m1 E1] Hn1 Hs1 Hx1] [[m2 E2] Hn2 Hs2 Hx2] HYX. split.
  - exists m2. rewrite E2, E1. done.
  - lia.
  - intros x Hx HX. destruct (Hs1 x Hx HX) as [E3 E4]. destruct (Hs2 x ltac:(lia)) as [E5 E6]; [auto|].
    split; congruence.
  - intros c P Hc. by apply Hx2, Hx1.
Qed.
Lemma upd_weaken (X Y : addr -> Prop) s s' : upd X s s' -> (forall x, x < nx s -> X x -> Y x) -> upd Y s s'.
Proof. intros HU HXY. eapply upd_trans; [apply upd_refl|exact HU|exact HXY]. Qed.
Lemma upd_tsize X s s' : upd X s s' -> t_tsize (s_t s') = t_tsize (s_t s).
Proof. intros [[m E] _ _ _]. by rewrite E. Qed.

Lemma upd_stN X s0 s a n n0 : upd X s0 s -> nd s !! a = Some n0 ->
  (nx s0 <= a \/ X a /\ (n_leaf n = n_leaf n0 \/ forall P, leafokL (s_h s) (n_leaf n0) P -> leafokL (s_h s) (n_leaf n) P)) ->
  upd X s0 (stN s a n).
Proof.
  intros [Ht Hn Hs Hx] Hna Ha. split; [done|done| |].
  - intros x Hxl HX. destruct (Hs x Hxl HX) as [E1 E2]. split; [|done]. cbn.
    rewrite lookup_insert_ne; [done|]. intros ->. destruct Ha as [Ha|[Ha _]]; [lia|done].
  - intros c P Hc. assert (Hcl : c < nx s0) by apply Hc. apply Hx in Hc. destruct Hc as (Hc1 & m & Hm & Hl).
    split; [exact Hc1|]. cbn. destruct (decide (c = a)) as [->|Hne].
    + exists n. rewrite lookup_insert. split; [done|]. assert (m = n0) as -> by congruence.
      destruct Ha as [Ha|[_ [Ha|Ha]]]; [lia|rewrite Ha; exact Hl|]. apply (Ha P). exact Hl.
    + exists m. rewrite lookup_insert_ne by done. split; [done|]. exact Hl.
Qed.
Lemma upd_alN X s0 s n : upd X s0 s -> upd X s0 (alN s n).
Proof.
  intros [[mx Ht] Hn Hs Hx]. split.
  - exists (S (t_max (s_t s))). cbn. rewrite Ht. done.
  - cbn. lia.
  - intros x Hxl HX. destruct (Hs x Hxl HX) as [E1 E2]. split; [|done]. cbn. rewrite lookup_insert_ne; [done|lia].
  - intros c P Hc. apply Hx in Hc. destruct Hc as (Hc1 & m & Hm & Hl). split; [cbn; lia|]. exists m. cbn.
    rewrite lookup_insert_ne by lia. split; [done|]. destruct (n_leaf m); [|done]. destruct Hl as [? Hl]. split; [lia|done].
Qed.
Lemma upd_alL X s0 s l : upd X s0 s -> upd X s0 (alL s l).
Proof.
  intros [[mx Ht] Hn Hs Hx]. split.
  - exists (S (t_max (s_t s))). cbn. rewrite Ht. done.
  - cbn. lia.
  - intros x Hxl HX. destruct (Hs x Hxl HX) as [E1 E2]. split; [done|]. cbn. rewrite lookup_insert_ne; [done|lia].
  - intros c P Hc. apply Hx in Hc. destruct Hc as (Hc1 & m & Hm & Hl). split; [cbn; lia|]. exists m. cbn.
    split; [done|]. destruct (n_leaf m); [|done]. destruct Hl as (? & l' & Hl' & ?). split; [lia|]. exists l'.
    rewrite lookup_insert_ne by lia. done.
Qed.
Lemma upd_stL X s0 s a l l0 : upd X s0 s -> lv s !! a = Some l0 -> l_key l = l_key l0 -> (nx s0 <= a \/ X a) ->
  upd X s0 (stL s a l).
Proof.
  intros [Ht Hn Hs Hx] Hna Hk Ha. split; [done|done| |].
  - intros x Hxl HX. destruct (Hs x Hxl HX) as [E1 E2]. split; [done|]. cbn.
    rewrite lookup_insert_ne; [done|]. intros ->. destruct Ha as [Ha|Ha]; [lia|done].
  - intros c P Hc. apply Hx in Hc. destruct Hc as (Hc1 & m & Hm & Hl). split; [exact Hc1|]. exists m. cbn.
    split; [done|]. destruct (n_leaf m) as [la|]; [|done]. destruct Hl as (? & l' & Hl' & HP). split; [done|].
    destruct (decide (la = a)) as [->|Hne].
    + exists l. rewrite lookup_insert. split; [done|]. rewrite Hk. by assert (l' = l0) as -> by congruence.
    + exists l'. rewrite lookup_insert_ne by done. done.
Qed.

Lemma upd_rep X s s' p t : upd X s s' -> rep (s_h s) p t -> (forall x, x ∈ fp t -> ~ X x) -> rep (s_h s') p t.
Proof.
  intros [Ht Hn Hs Hx] Hr HX. eapply rep_frame; [exact Hn| |exact Hx|exact Hr].
  intros x Hin. apply Hs; [by eapply rep_fp|by apply HX].
Qed.
Lemma upd_leafrep X s s' o lf : upd X s s' -> leafrep (s_h s) o lf -> (forall x, x ∈ lfa lf -> ~ X x) -> leafrep (s_h s') o lf.
Proof.
  intros [Ht Hn Hs Hx] Hr HX. eapply leafrep_frame; [exact Hn| |exact Hr]. intros x Hin. apply Hs; [|by apply HX].
  destruct lf as [[[la k] v]|]; [|by apply elem_of_nil in Hin]. apply elem_of_list_singleton in Hin as ->. apply Hr.
Qed.
Lemma upd_node X s s' a n : upd X s s' -> nd s !! a = Some n -> a < nx s -> ~ X a -> nd s' !! a = Some n.
Proof. intros [Ht Hn Hs Hx] Ha Hlt HX. destruct (Hs a Hlt HX) as [-> _]. done. Qed.
Lemma upd_leaf X s s' a l : upd X s s' -> lv s !! a = Some l -> a < nx s -> ~ X a -> lv s' !! a = Some l.
Proof. intros [Ht Hn Hs Hx] Ha Hlt HX. destruct (Hs a Hlt HX) as [_ ->]. done. Qed.

(** ** Node copies *)
Lemma clonePartial_id x : length x = maxPrefixLen -> clonePartial x = x.
Proof.
  intros Hl. unfold clonePartial, go_copy. rewrite replicate_length, Hl, Nat.sub_0_r, Nat.min_id.
  cbn [take app]. rewrite (firstn_all2 x) by lia. rewrite skipn_all2 by (rewrite replicate_length; lia). by rewrite app_nil_r.
Qed.

(** Equality of nodes up to the identifier. *)
Definition same_node (n n' : inode) : Prop :=
  n_kind n' = n_kind n /\ n_plen n' = n_plen n /\ n_nch n' = n_nch n /\ n_partial n' = n_partial n /\
  n_keys n' = n_keys n /\ n_children n' = n_children n /\ n_leaf n' = n_leaf n.
Lemma same_node_arr n n' : same_node n n' -> same_arr n n'.
Proof. intros (? & ? & ? & ? & ? & ? & ?). done. Qed.

Lemma ewriteNode_spec s a n : nd s !! a = Some n -> length (n_partial n) = maxPrefixLen -> a < nx s ->
  wp (ewriteNode a) (fun a' s' => exists n', nd s' !! a' = Some n' /\ same_node n n' /\ a' < nx s' /\
     (a' = a \/ nx s <= a') /\ upd none s s' /\ lv s' = lv s) s.
Proof.
  intros Hn Hp Hlt. unfold wp, ewriteNode. rewrite Hn. destruct (Nat.ltb _ _).
  - exists n. split_and!; auto; [done|apply upd_refl].
  - eexists. cbn. rewrite lookup_insert. split_and!; [done|..].
    + unfold same_node. cbn. by rewrite clonePartial_id.
    + lia.
    + right. lia.
    + apply (upd_alN none s s). apply upd_refl.
    + done.
Qed.
Lemma ewriteNode_ch s a n : nd s !! a = Some n -> length (n_partial n) = maxPrefixLen -> a < nx s ->
  wp (ewriteNode a) (fun a' s' => exists n', nd s' !! a' = Some n' /\ same_node n n' /\ a' < nx s' /\
     (a' = a \/ nx s <= a') /\ upd none s s' /\ lv s' = lv s /\ n_ch n' = n_ch n) s.
Proof.
  intros Hn Hp Hlt. unfold wp, ewriteNode. rewrite Hn. destruct (Nat.ltb _ _).
  - exists n. split_and!; auto; [done|apply upd_refl].
  - eexists. cbn. rewrite lookup_insert. split_and!; [done|..].
    + unfold same_node. cbn. by rewrite clonePartial_id.
    + lia.
    + right. lia.
    + apply (upd_alN none s s). apply upd_refl.
    + done.
    + done.
Qed.
Lemma ewriteLeaf_spec s a l : lv s !! a = Some l -> a < nx s ->
  wp (ewriteLeaf a) (fun a' s' => exists l', lv s' !! a' = Some l' /\ l_key l' = l_key l /\ l_val l' = l_val l /\ a' < nx s' /\
     (a' = a \/ nx s <= a') /\ upd none s s' /\ nd s' = nd s) s.
Proof.
  intros Hn Hlt. unfold wp, ewriteLeaf. rewrite Hn. destruct (Nat.ltb _ _).
  - exists l. split_and!; auto; apply upd_refl.
  - eexists. cbn. rewrite lookup_insert. split_and!; [done|done|done|lia|right; lia| |done].
    apply (upd_alL none s s). apply upd_refl.
Qed.

(** ** Fresh leaf holders *)
Lemma enc_zero4 i : enc (fresh_node K4 i) [].
Proof. split; cbn; try done. lia. Qed.
Lemma stale_zero k i : stale (fresh_node k i) = [].
Proof. destruct k; done. Qed.

Lemma makeLeaf_spec s k v p : stored k -> p `prefix_of` k ->
  wp (makeLeaf k v) (fun a s' => a = S (nx s) /\ nx s' = S (S (nx s)) /\ upd none s s' /\
     rep (s_h s') p (Art a [] (Some (nx s, k, v)) []) /\ exists n, nd s' !! a = Some n /\ n_leaf n = Some (nx s)) s.
Proof.
  intros Hs Hp. unfold wp.
  set (l1 := mkL (S (S (t_max (s_t s)))) v k None).
  set (t' := set_t_max (s_t s) (S (S (S (S (t_max (s_t s))))))).
  set (n1 := set_id (set_leaf (fresh_node K4 (S (S (S (t_max (s_t s)))))) (Some (nx s))) (S (S (S (S (t_max (s_t s))))))).
  set (s1 := alL s (mkL (S (t_max (s_t s))) v k None)).
  assert (E : makeLeaf k v s = (Ok (S (nx s)),
     mkS (mkH (<[S (nx s) := n1]> (nd s)) (<[nx s := l1]> (lv s)) (S (S (nx s))) (h_nextch (s_h s)) (h_closed (s_h s))) t')).
  { unfold makeLeaf, allocLeaf, allocNode, setNodeLeaf, updN, nextId, loadL, loadN, storeL, storeN, liftH, hloadL, hloadN, hstoreL, hstoreN, hallocL, hallocN, bind, getT, putT, ret, lift.
    cbn. rewrite !lookup_insert. cbn. rewrite !lookup_insert. cbn.
    unfold set_nodes, set_leaves. cbn. by rewrite !insert_insert. }
  rewrite E. clear E. split; [done|]. split; [done|].
  assert (HU : upd none s (mkS (mkH (<[S (nx s) := n1]> (nd s)) (<[nx s := l1]> (lv s)) (S (S (nx s))) (h_nextch (s_h s)) (h_closed (s_h s))) t')).
  { destruct (upd_alN none s (alL s l1) n1) as [_ Hn Hs' Hx]; [apply upd_alL, upd_refl|]. split; [|exact Hn|exact Hs'|exact Hx].
    eexists. reflexivity. }
  split; [exact HU|]. split.
  - apply (rep_node _ p (S (nx s)) [] _ [] n1); cbn [s_h h_nodes h_next h_leaves].
    + by rewrite lookup_insert.
    + cbn. lia.
    + eapply enc_same; [|apply (enc_zero4 0)]. done.
    + done.
    + split; [done|]. split; [cbn; lia|]. exists l1. cbn. by rewrite lookup_insert.
    + done.
    + intros _. eauto 10.
    + intros la k' v' [= <- <- <-]. done.
    + intros c Hc. by apply elem_of_nil in Hc.
    + intros b t Hb. by apply elem_of_nil in Hb.
    + cbn. lia.
  - exists n1. cbn. rewrite lookup_insert. done.
Qed.

(** ** Headers *)
Definition hdr (n n' : inode) : Prop :=
  n_plen n' = n_plen n /\ length (n_partial n') = maxPrefixLen /\
  take (maxPrefixLen `min` n_plen n) (n_partial n') = take (maxPrefixLen `min` n_plen n) (n_partial n).
Lemma hdr_refl n : length (n_partial n) = maxPrefixLen -> hdr n n.
Proof. done. Qed.
Lemma hdr_trans n1 n2 n3 : hdr n1 n2 -> hdr n2 n3 -> hdr n1 n3.
Proof. intros (H1 & H2 & H3) (H4 & H5 & H6). split_and!; [congruence|done|]. rewrite H1 in H6. congruence. Qed.

Lemma go_copy_0 {A} (d s : list A) : length s <= length d -> go_copy d 0 s = s ++ drop (length s) d.
Proof.
  intros Hl. unfold go_copy. rewrite Nat.sub_0_r, Nat.min_l by done. cbn [take app plus]. by rewrite firstn_all.
Qed.
Lemma copyHeader_spec d n : length (n_partial d) = maxPrefixLen -> length (n_partial n) = maxPrefixLen ->
  exists P, copyHeader d n = Ok (set_partial (set_plen (set_nch d (n_nch n)) (n_plen n)) P) /\
    length P = maxPrefixLen /\ take (maxPrefixLen `min` n_plen n) P = take (maxPrefixLen `min` n_plen n) (n_partial n).
Proof.
  intros Hd Hn. unfold copyHeader. rewrite Hd, Hn, (proj2 (Nat.leb_le _ _)) by lia. cbn [andb].
  assert (Hl : length (take (maxPrefixLen `min` n_plen n) (n_partial n)) = maxPrefixLen `min` n_plen n) by (rewrite take_length; lia).
  eexists. split; [reflexivity|]. cbn [set_plen set_nch n_partial]. rewrite go_copy_0 by lia. split.
  - rewrite app_length, drop_length, Hl. lia.
  - rewrite take_app_alt; [done|lia].
Qed.

(** ** Adding a child *)
(** lf' is lf with the leaf possibly at a new address *)
Definition lf_moved (m : addr) (lf lf' : option (addr * bytes * V)) : Prop :=
  match lf, lf' with
  | None, None => True
  | Some (la, k, v), Some (la', k', v') => k' = k /\ v' = v /\ (la' = la \/ m <= la')
  | _, _ => False
  end.
Lemma lf_moved_refl m lf : lf_moved m lf lf.
Proof. destruct lf as [[[la k] v]|]; cbn; auto. Qed.
Lemma lf_moved_trans m m' l1 l2 l3 : m <= m' -> lf_moved m l1 l2 -> lf_moved m' l2 l3 -> lf_moved m l1 l3.
Proof.
  intros Hm. destruct l1 as [[[]]|], l2 as [[[]]|], l3 as [[[]]|]; cbn; try done.
  intros (-> & -> & H1) (-> & -> & H2). split_and!; [done..|]. lia.
Qed.
Lemma lf_moved_lfl m l1 l2 : lf_moved m l1 l2 -> lfl l2 = lfl l1.
Proof. destruct l1 as [[[]]|], l2 as [[[]]|]; cbn; try done. by intros (-> & -> & _). Qed.

Lemma emoveLeaf_spec s nn d o lf : nd s !! nn = Some d -> n_leaf d = None -> leafrep (s_h s) o lf ->
  wp (emoveLeaf nn o) (fun _ s' => exists o' lf', nd s' = <[nn := set_leaf d o']> (nd s) /\ leafrep (s_h s') o' lf' /\
     lf_moved (nx s) lf lf' /\ nx s <= nx s' /\ forall s0 X, nx s0 <= nn -> upd X s0 s -> upd X s0 s') s.
Proof.
  intros Hd Hdn Hl. unfold emoveLeaf. destruct lf as [[[la k] v]|]; cbn in Hl.
  - destruct Hl as (-> & Hlt & l & Hl & <- & <-). apply wp_bind.
    eapply wp_mono; [by eapply ewriteLeaf_spec|]. cbn. intros a' s' (l' & Hl' & Hk & Hv & Ha' & Hf & HU & Hnd).
    eapply wp_setNodeLeaf; [by rewrite Hnd|]. exists (Some a'), (Some (a', l_key l, l_val l)). split; [|split; [|split; [|split]]].
    + cbn. by rewrite Hnd.
    + cbn. split; [done|]. split; [done|]. exists l'. done.
    + cbn. tauto.
    + apply HU.
    + intros s0 X Hs0 HX. eapply upd_stN; [eapply upd_trans; [exact HX|exact HU|done]|rewrite Hnd; done|]. by left.
  - subst o. apply wp_ret. exists None, None. split_and!; [|done|done|done|auto].
    rewrite insert_id; [done|]. rewrite Hd. by destruct d; cbn in Hdn; subst.
Qed.

Definition add_post (s : st V) (a : addr) (n : inode) (es' : entries) (lf : option (addr * bytes * V)) (a' : addr) (s' : st V) : Prop :=
  exists n' lf', nd s' !! a' = Some n' /\ upd (eq a) s s' /\ (a' = a \/ nx s <= a') /\ a' < nx s' /\ enc n' es' /\ hdr n n' /\
    (forall x, x ∈ stale n' -> x ∈ stale n) /\ leafrep (s_h s') (n_leaf n') lf' /\ lf_moved (nx s) lf lf' /\ (a ∉ lfa lf -> a' ∉ lfa lf') /\
    (n_kind n' = n_kind n \/ low_of (n_kind n') <= length es').

Definition add_pre (s : st V) (a : addr) (n : inode) (es : entries) lf : Prop :=
  nd s !! a = Some n /\ a < nx s /\ enc n es /\ length (n_partial n) = maxPrefixLen /\ leafrep (s_h s) (n_leaf n) lf.

Lemma add_here s a n es lf es' f K C N : add_pre s a n es lf -> f n = Ok (set_arr n K C N) -> enc (set_arr n K C N) es' ->
  (forall x, x ∈ stale (set_arr n K C N) -> x ∈ stale n) ->
  wp (updN a f ;;; ret a) (add_post s a n es' lf) s.
Proof.
  intros (Hn & Hlt & He & Hp & Hl) Hf He' Hs. apply wp_bind. eapply wp_updN; [done|exact Hf|]. apply wp_ret.
  exists (set_arr n K C N), lf. cbn. rewrite lookup_insert. split_and!; auto.
  - eapply upd_stN; [apply upd_refl|done|]. right. split; [done|]. by left.
  - done.
  - apply lf_moved_refl.
Qed.

Lemma addChild256_spec s a n l1 b c l2 lf : add_pre s a n (l1 ++ l2) lf -> n_kind n = K256 ->
  below b l1 -> above b l2 -> b < 256 -> wp (addChild256 a b c) (add_post s a n (l1 ++ (b, c) :: l2) lf) s.
Proof.
  intros Hpre Hk Hbl Hab Hb. destruct (insert256_spec n l1 l2 b c) as (K & C & N & E & He); try done; [apply Hpre|].
  eapply add_here; [done|exact E|done|]. unfold stale. cbn. rewrite Hk. cbn. intros x Hx. by apply elem_of_nil in Hx.
Qed.

(** A new, larger node: what has been established when the child is finally added to it. *)
Lemma add_grown s a n es' lf s1 nn n1 lf1 a' s' :
  nx s <= nn -> upd none s s1 -> hdr n n1 -> stale n1 = [] -> low_of (n_kind n1) <= length es' -> lf_moved (nx s) lf lf1 -> nn ∉ lfa lf1 ->
  add_post s1 nn n1 es' lf1 a' s' -> add_post s a n es' lf a' s'.
Proof.
  intros Hnn HU Hh Hst Hlw Hlm Hni (n' & lf' & Hn' & HU' & Ha' & Hlt' & He' & Hh' & Hst' & Hl' & Hlm' & Hni' & Hlw').
  pose proof (upd_next _ _ _ HU) as Hnx. exists n', lf'. split_and!; try done.
  - eapply upd_trans; [eapply upd_weaken; [exact HU|done]|exact HU'|]. intros x Hx <-. lia.
  - right. destruct Ha'; lia.
  - by eapply hdr_trans.
  - intros x Hx. apply Hst' in Hx. rewrite Hst in Hx. by apply elem_of_nil in Hx.
  - eapply lf_moved_trans; [|exact Hlm|exact Hlm']. lia.
  - intros _. by apply Hni'.
  - right. destruct Hlw' as [->|?]; done.
Qed.
(** The leaf is not stored at the address of the new node. *)
Lemma moved_ne s lf lf1 nn : leafrep (s_h s) (match lf with Some (la, _, _) => Some la | None => None end) lf ->
  nx s = nn -> lf_moved (S nn) lf lf1 -> nn ∉ lfa lf1.
Proof.
  intros Hl <- Hm. destruct lf as [[[la k] v]|], lf1 as [[[la1 k1] v1]|]; cbn in *; try done.
  - destruct Hl as (_ & Hlt & _). destruct Hm as (_ & _ & Hm). rewrite elem_of_list_singleton. lia.
  - intros Hx. by apply elem_of_nil in Hx.
Qed.
Lemma leafrep_self h o lf : leafrep (V:=V) h o lf -> leafrep h (match lf with Some (la, _, _) => Some la | None => None end) lf.
Proof. destruct lf as [[[la k] v]|]; [|done]. intros (_ & ? & ?). done. Qed.

Lemma alN_leafrep s n o lf : leafrep (s_h s) o lf -> leafrep (s_h (alN s n)) o lf.
Proof. intros Hl. eapply (upd_leafrep none); [apply upd_alN, upd_refl|exact Hl|]. intros ? ? []. Qed.

Lemma eaddChild48_spec s a n l1 b c l2 lf : add_pre s a n (l1 ++ l2) lf -> n_kind n = K48 ->
  below b l1 -> above b l2 -> b < 256 -> wp (eaddChild48 a b c) (add_post s a n (l1 ++ (b, c) :: l2) lf) s.
Proof.
  intros Hpre Hk Hbl Hab Hb. pose proof Hpre as (Hn & Hlt & He & Hp & Hl). unfold eaddChild48.
  pose proof He as [Hso Hby Hnc Hkl Hcl Hca Hsh]. rewrite Hk in Hca. cbn in Hca.
  apply wp_bind. eapply wp_loadN; [done|]. rewrite Hnc, u8_small by lia.
  destruct (Nat.ltb_spec (length (l1 ++ l2)) 48) as [Hlt48|Hge].
  - destruct (insert48_spec n l1 l2 b c) as (K & C & N & E & He'); try done.
    eapply add_here; [done|exact E|done|]. unfold stale. cbn. rewrite Hk. cbn. intros x Hx. by apply elem_of_nil in Hx.
  - apply wp_bind, wp_allocNode. set (d := fresh_node K256 _). set (s1 := alN s d).
    assert (Hd1 : nd s1 !! nx s = Some d) by (cbn; by rewrite lookup_insert).
    apply wp_bind. eapply wp_mono; [eapply (emoveLeaf_spec s1 (nx s) d); [done|done|by apply alN_leafrep]|].
    cbn beta. intros _ s2 (o' & lf' & Hnd2 & Hl2 & Hlm & Hnx2 & HU2).
    destruct (grow48_spec n (l1 ++ l2) (set_leaf d o')) as (C & EC & HeC); try done.
    apply wp_bind. eapply wp_updN; [rewrite Hnd2; by rewrite lookup_insert|exact EC|].
    destruct (copyHeader_spec (set_children (set_leaf d o') C) n) as (P & EP & HP1 & HP2); [done|done|].
    apply wp_bind. eapply wp_updN; [cbn; by rewrite lookup_insert|exact EP|].
    set (n3 := set_partial _ P). set (s3 := stN _ _ n3).
    assert (Hn3 : nd s3 !! nx s = Some n3) by (cbn; by rewrite lookup_insert).
    assert (HU3 : upd none s s3).
    { eapply upd_stN; [eapply upd_stN; [apply HU2; [done|apply upd_alN, upd_refl]|rewrite Hnd2; by rewrite lookup_insert|by left]| |by left].
      cbn. by rewrite lookup_insert. }
    eapply wp_mono; [eapply (addChild256_spec s3 (nx s) n3 l1 b c l2 lf')|].
    + split_and!; [done| |eapply enc_same; [|exact HeC]; done|done|done]. cbn in Hnx2 |- *. lia.
    + done.
    + done.
    + done.
    + done.
    + intros a' s'. apply add_grown; try done.
      * cbn. rewrite app_length in Hge |- *. cbn. lia.
      * eapply (lf_moved_trans (nx s) (nx s1)); [cbn; lia|apply lf_moved_refl|exact Hlm].
      * eapply moved_ne; [eapply leafrep_self; exact Hl|done|exact Hlm].
Qed.

Lemma eaddChild16_spec s a n l1 b c l2 lf : add_pre s a n (l1 ++ l2) lf -> n_kind n = K16 ->
  below b l1 -> above b l2 -> b < 256 -> wp (eaddChild16 a b c) (add_post s a n (l1 ++ (b, c) :: l2) lf) s.
Proof.
  intros Hpre Hk Hbl Hab Hb. pose proof Hpre as (Hn & Hlt & He & Hp & Hl). unfold eaddChild16.
  pose proof He as [Hso Hby Hnc Hkl Hcl Hca Hsh]. rewrite Hk in Hca. cbn in Hca.
  apply wp_bind. eapply wp_loadN; [done|]. rewrite Hnc, u8_small by lia.
  destruct (Nat.ltb_spec (length (l1 ++ l2)) 16) as [Hlt48|Hge].
  - destruct (insertSorted_spec n l1 l2 b c) as (K & C & N & E & He' & Hs'); try done; [by rewrite Hk|by rewrite Hk|].
    eapply add_here; [done|exact E|done|done].
  - apply wp_bind, wp_allocNode. set (d := fresh_node K48 _). set (s1 := alN s d).
    assert (Hd1 : nd s1 !! nx s = Some d) by (cbn; by rewrite lookup_insert).
    apply wp_bind. eapply wp_mono; [eapply (emoveLeaf_spec s1 (nx s) d); [done|done|by apply alN_leafrep]|].
    cbn beta. intros _ s2 (o' & lf' & Hnd2 & Hl2 & Hlm & Hnx2 & HU2).
    destruct (grow16_spec n (l1 ++ l2) (set_leaf d o')) as (C & EC & HeC); try done.
    rewrite Hnc, u8_small in EC, HeC by lia.
    apply wp_bind. eapply wp_updN; [rewrite Hnd2; by rewrite lookup_insert|reflexivity|].
    apply wp_bind. eapply wp_updN; [cbn; by rewrite lookup_insert|exact EC|].
    match type of EC with _ = Ok ?x => set (d2 := x) in * end.
    destruct (copyHeader_spec d2 n) as (P & EP & HP1 & HP2); [done|done|].
    apply wp_bind. eapply wp_updN; [cbn; by rewrite lookup_insert|exact EP|].
    set (n3 := set_partial _ P). set (s3 := stN _ _ n3).
    assert (Hn3 : nd s3 !! nx s = Some n3) by (cbn; by rewrite lookup_insert).
    assert (HU3 : upd none s s3).
    { eapply upd_stN; [eapply upd_stN; [eapply upd_stN; [apply HU2; [done|apply upd_alN, upd_refl]|rewrite Hnd2; by rewrite lookup_insert|by left]| |by left]| |by left].
      all: cbn; by rewrite lookup_insert. }
    eapply wp_mono; [eapply (eaddChild48_spec s3 (nx s) n3 l1 b c l2 lf')|].
    + split_and!; [done| |eapply enc_same; [|exact HeC]|done|done]. { cbn in Hnx2 |- *. lia. }
      split_and!; try done. cbn. rewrite Hnc, u8_small; [done|lia].
    + done.
    + done.
    + done.
    + done.
    + intros a' s'. apply add_grown; try done.
      * cbn. rewrite app_length in Hge |- *. cbn. lia.
      * eapply (lf_moved_trans (nx s) (nx s1)); [cbn; lia|apply lf_moved_refl|exact Hlm].
      * eapply moved_ne; [eapply leafrep_self; exact Hl|done|exact Hlm].
Qed.

Lemma eaddChild4_spec s a n l1 b c l2 lf : add_pre s a n (l1 ++ l2) lf -> n_kind n = K4 ->
  below b l1 -> above b l2 -> b < 256 -> wp (eaddChild4 a b c) (add_post s a n (l1 ++ (b, c) :: l2) lf) s.
Proof.
  intros Hpre Hk Hbl Hab Hb. pose proof Hpre as (Hn & Hlt & He & Hp & Hl). unfold eaddChild4.
  pose proof He as [Hso Hby Hnc Hkl Hcl Hca Hsh]. rewrite Hk in Hca. cbn in Hca.
  apply wp_bind. eapply wp_loadN; [done|]. rewrite Hnc, u8_small by lia.
  destruct (Nat.ltb_spec (length (l1 ++ l2)) 4) as [Hlt48|Hge].
  - destruct (insertSorted_spec n l1 l2 b c) as (K & C & N & E & He' & Hs'); try done; [by rewrite Hk|by rewrite Hk|].
    eapply add_here; [done|exact E|done|done].
  - apply wp_bind, wp_allocNode. set (d := fresh_node K16 _). set (s1 := alN s d).
    assert (Hd1 : nd s1 !! nx s = Some d) by (cbn; by rewrite lookup_insert).
    apply wp_bind. eapply wp_mono; [eapply (emoveLeaf_spec s1 (nx s) d); [done|done|by apply alN_leafrep]|].
    cbn beta. intros _ s2 (o' & lf' & Hnd2 & Hl2 & Hlm & Hnx2 & HU2).
    destruct (grow4_spec n (l1 ++ l2) (set_leaf d o')) as (HeC & HsC); try done.
    rewrite Hnc, u8_small in HeC, HsC by lia.
    apply wp_bind. eapply wp_updN; [rewrite Hnd2; by rewrite lookup_insert|reflexivity|].
    apply wp_bind. eapply wp_updN; [cbn; by rewrite lookup_insert|reflexivity|].
    match goal with |- wp _ _ (stN _ _ ?x) => set (d2 := x) in * end.
    destruct (copyHeader_spec d2 n) as (P & EP & HP1 & HP2); [done|done|].
    apply wp_bind. eapply wp_updN; [cbn; by rewrite lookup_insert|exact EP|].
    set (n3 := set_partial _ P). set (s3 := stN _ _ n3).
    assert (Hn3 : nd s3 !! nx s = Some n3) by (cbn; by rewrite lookup_insert).
    assert (HU3 : upd none s s3).
    { eapply upd_stN; [eapply upd_stN; [eapply upd_stN; [apply HU2; [done|apply upd_alN, upd_refl]|rewrite Hnd2; by rewrite lookup_insert|by left]| |by left]| |by left].
      all: cbn; by rewrite lookup_insert. }
    assert (Hsa : same_arr (set_arr (set_leaf d o') (go_copy (n_keys (set_leaf d o')) 0 (take (length (l1 ++ l2)) (n_keys n)))
        (go_copy (n_children (set_leaf d o')) 0 (take (length (l1 ++ l2)) (n_children n))) (length (l1 ++ l2))) n3).
    { split_and!; try done. cbn. rewrite Hnc, u8_small; [done|lia]. }
    eapply wp_mono; [eapply (eaddChild16_spec s3 (nx s) n3 l1 b c l2 lf')|].
    + split_and!; [done| |eapply enc_same; [|exact HeC]; done|done|done]. cbn in Hnx2 |- *. lia.
    + done.
    + done.
    + done.
    + done.
    + intros a' s'. apply add_grown; try done.
      * rewrite <- HsC. by apply stale_same.
      * cbn. rewrite app_length in Hge |- *. cbn. lia.
      * eapply (lf_moved_trans (nx s) (nx s1)); [cbn; lia|apply lf_moved_refl|exact Hlm].
      * eapply moved_ne; [eapply leafrep_self; exact Hl|done|exact Hlm].
Qed.

Lemma eaddChild_spec s a n l1 b c l2 lf : add_pre s a n (l1 ++ l2) lf ->
  below b l1 -> above b l2 -> b < 256 -> wp (eaddChild a b c) (add_post s a n (l1 ++ (b, c) :: l2) lf) s.
Proof.
  intros Hpre Hbl Hab Hb. unfold eaddChild. apply wp_bind. eapply wp_loadN; [apply Hpre|].
  destruct (n_kind n) eqn:Hk.
  - by apply eaddChild4_spec.
  - by apply eaddChild16_spec.
  - by apply eaddChild48_spec.
  - by apply addChild256_spec.
Qed.
End Wp.
