(** Two memories that differ in addresses and channels only, and programs that do the same in both.

    A correspondence b relates addresses of a first memory to addresses of a second one, separately for inner nodes and leaves.
    Programs are related when they make the same accesses at corresponding addresses; accesses to channels are left out. *)
From Verif Require Export Prog Erase.
From stdpp Require Import list.
Local Open Scope nat_scope.

Section Sim.
Context {V : Type} `{GoZero V}.

(** Searches for the smallest leaf are bounded in the model by the size of the memory.  [fo]: the second memory is not larger than the first one,
    so that the first program ends if the second one does. *)
Variable fo : bool.

(** correspondences: [b true] for inner nodes, [b false] for leaves *)
Notation corr := (bool -> addr -> addr -> Prop).
Definition cle (b b' : corr) : Prop := forall k x y, b k x y -> b' k x y.
Definition bij (b : corr) : Prop := forall k x y x' y', b k x y -> b k x' y' -> (x = x' <-> y = y').
Definition kext (b b' : corr) : Prop := cle b b' /\ bij b'.

Inductive oR (R : addr -> addr -> Prop) : option addr -> option addr -> Prop :=
| oR_some x y : R x y -> oR R (Some x) (Some y)
| oR_none : oR R None None.
Record nrel (b : corr) (n n' : inode) : Prop := mk_nrel {
  nr_kind : n_kind n = n_kind n'; nr_id : n_id n = n_id n'; nr_plen : n_plen n = n_plen n'; nr_nch : n_nch n = n_nch n';
  nr_partial : n_partial n = n_partial n'; nr_keys : n_keys n = n_keys n';
  nr_children : Forall2 (oR (b true)) (n_children n) (n_children n'); nr_leaf : oR (b false) (n_leaf n) (n_leaf n') }.
Record lrel (l l' : lnode V) : Prop := mk_lrel { lr_id : l_id l = l_id l'; lr_val : l_val l = l_val l'; lr_key : l_key l = l_key l' }.
Record trel (b : corr) (t t' : txn) : Prop := mk_trel {
  tr_root : b true (t_root t) (t_root t'); tr_tsize : t_tsize t = t_tsize t'; tr_max : t_max t = t_max t'; tr_size : t_size t = t_size t';
  tr_oldmax : t_oldmax t = t_oldmax t'; tr_track : t_track t = t_track t' }.
Inductive rR (b : corr) : option ref -> option ref -> Prop :=
| rR_N x y : b true x y -> rR b (Some (RN x)) (Some (RN y))
| rR_L x y : b false x y -> rR b (Some (RL x)) (Some (RL y))
| rR_none : rR b None None.

Lemma cle_refl b : cle b b. Proof. by intros k x y. Qed.
Lemma cle_trans a b c : cle a b -> cle b c -> cle a c. Proof. intros A B k x y E. auto. Qed.
Lemma kext_refl b : bij b -> kext b b. Proof. intros Hb. split; [by intros k x y|done]. Qed.
Lemma kext_trans a b c : kext a b -> kext b c -> kext a c.
Proof. intros [A1 A2] [B1 B2]. split; [by eapply cle_trans|done]. Qed.
Lemma oR_mono (R R' : addr -> addr -> Prop) o o' : (forall x y, R x y -> R' x y) -> oR R o o' -> oR R' o o'.
Proof. intros HR []; constructor; auto. Qed.
Lemma oR_le b b' k o o' : cle b b' -> oR (b k) o o' -> oR (b' k) o o'.
Proof. intros HR. apply oR_mono. intros x y. apply HR. Qed.
Lemma F2_le b b' l l' : cle b b' -> Forall2 (oR (b true)) l l' -> Forall2 (oR (b' true)) l l'.
Proof. intros L Hl. eapply Forall2_impl; [exact Hl|]. intros ? ?. by apply oR_le. Qed.
Lemma rR_le b b' x y : cle b b' -> rR b x y -> rR b' x y. Proof. intros L []; constructor; by apply L. Qed.
Lemma nrel_le b b' n n' : cle b b' -> nrel b n n' -> nrel b' n n'.
Proof.
  intros L [A1 A2 A3 A4 A5 A6 A7 A8]. split; try done; [|by eapply oR_le].
  eapply Forall2_impl; [exact A7|]. intros x y. by apply oR_le.
Qed.
Lemma trel_le b b' t t' : cle b b' -> trel b t t' -> trel b' t t'.
Proof. intros L [A1 A2 A3 A4 A5 A6]. split; auto. Qed.

(** ** Related programs *)
Inductive crel (b : corr) : forall B, cmd V B -> cmd V B -> (corr -> B -> B -> Prop) -> Prop :=
| cr_LoadN x y : b true x y -> crel b _ (LoadN x) (LoadN y) nrel
| cr_LoadL x y : b false x y -> crel b _ (LoadL x) (LoadL y) (fun _ => lrel)
| cr_StoreN x y n n' : b true x y -> nrel b n n' -> crel b _ (StoreN x n) (StoreN y n') (fun _ _ _ => True)
| cr_StoreL x y l l' : b false x y -> lrel l l' -> crel b _ (StoreL x l) (StoreL y l') (fun _ _ _ => True)
| cr_AllocN n n' : nrel b n n' -> crel b _ (AllocN n) (AllocN n') (fun b' => b' true)
| cr_AllocL l l' : lrel l l' -> crel b _ (AllocL l) (AllocL l') (fun b' => b' false)
| cr_GetT : crel b _ GetT GetT trel
| cr_PutT t t' : trel b t t' -> crel b _ (PutT t) (PutT t') (fun _ _ _ => True)
| cr_LiveN x y : b true x y -> crel b _ (LiveN x) (LiveN y) (fun _ u v => u = true /\ v = true)
| cr_LiveL x y : b false x y -> crel b _ (LiveL x) (LiveL y) (fun _ u v => u = true /\ v = true)
| cr_Next : crel b _ NextAddr NextAddr (fun _ x x' => fo = true -> x' <= x).
(** channel accesses of the first or the second program alone *)
Definition quietL (b : corr) {B} (c : cmd V B) : Prop :=
  match c with
  | MkChan | Close _ => True
  | CasChN x _ | SetChN x _ => exists y, b true x y
  | CasChL x _ | SetChL x _ => exists y, b false x y
  | _ => False
  end.
Definition quietR (b : corr) {B} (c : cmd V B) : Prop :=
  match c with
  | MkChan | Close _ => True
  | CasChN y _ | SetChN y _ => exists x, b true x y
  | CasChL y _ | SetChL y _ => exists x, b false x y
  | _ => False
  end.

Inductive prel {A} (R : corr -> A -> A -> Prop) (b : corr) : prog V A -> prog V A -> Prop :=
| pr_ret a a' : R b a a' -> prel R b (PRet (Ok a)) (PRet (Ok a'))
| pr_panic : prel R b (PRet Panic) (PRet Panic)
| pr_nfL q : fo = false -> prel R b (PRet NoFuel) q
| pr_nfR p : prel R b p (PRet NoFuel)
| pr_do B (c c' : cmd V B) k k' S : crel b B c c' S -> (forall b' x x', kext b b' -> S b' x x' -> prel R b' (k x) (k' x')) -> prel R b (Do c k) (Do c' k')
| pr_L B (c : cmd V B) k q : quietL b c -> (forall x, prel R b (k x) q) -> prel R b (Do c k) q
| pr_R B (c : cmd V B) k p : quietR b c -> (forall x, prel R b p (k x)) -> prel R b p (Do c k).

Lemma prel_bind {A B} (R : corr -> A -> A -> Prop) (S : corr -> B -> B -> Prop) b p q f g : bij b ->
  prel R b p q -> (forall b' x x', kext b b' -> R b' x x' -> prel S b' (f x) (g x')) -> prel S b (pbind p f) (pbind q g).
Proof.
  intros Hb Hp. revert Hb f g. induction Hp as [b a a' Ha|b|b q Hfo|b p|b C c c' k k' S' Hc _ IH|b C c k q Hq _ IH|b C c k p Hq _ IH]; intros Hb f g Hf; cbn [pbind].
  - apply Hf; [by apply kext_refl|done].
  - apply pr_panic.
  - by apply pr_nfL.
  - apply pr_nfR.
  - eapply pr_do; [exact Hc|]. intros b' x x' Hb' HS. apply (IH b' x x' Hb' HS); [apply Hb'|]. intros b2 y y' Hb2 Hy. apply Hf; [by eapply kext_trans|done].
  - apply pr_L; [done|]. intros x. by apply IH.
  - apply pr_R; [done|]. intros x. by apply IH.
Qed.
Lemma prel_mono {A} (R S : corr -> A -> A -> Prop) b p q : prel R b p q -> (forall b' x x', R b' x x' -> S b' x x') -> prel S b p q.
Proof.
  intros Hp HRS. induction Hp as [b a a' Ha|b|b q Hfo|b p|b C c c' k k' S' Hc _ IH|b C c k q Hq _ IH|b C c k p Hq _ IH].
  - apply pr_ret; auto.
  - apply pr_panic.
  - by apply pr_nfL.
  - apply pr_nfR.
  - by eapply pr_do.
  - by apply pr_L.
  - by apply pr_R.
Qed.

(** ** Related states *)
Record srel (b : corr) (h : heap V) (t : txn) (h' : heap V) (t' : txn) : Prop := mk_srel {
  sr_bij : bij b;
  sr_N : forall x y, b true x y -> exists n n', h_nodes h !! x = Some n /\ h_nodes h' !! y = Some n' /\ nrel b n n';
  sr_L : forall x y, b false x y -> exists l l', h_leaves h !! x = Some l /\ h_leaves h' !! y = Some l' /\ lrel l l';
  sr_lt : forall k x y, b k x y -> x < h_next h /\ y < h_next h';
  sr_t : trel b t t';
  sr_next : fo = true -> h_next h' <= h_next h }.

(** Changes of channels, on either side *)
Lemma er_n_fields n m : er_n n = er_n m -> n_kind n = n_kind m /\ n_id n = n_id m /\ n_plen n = n_plen m /\ n_nch n = n_nch m /\
  n_partial n = n_partial m /\ n_keys n = n_keys m /\ n_children n = n_children m /\ n_leaf n = n_leaf m.
Proof. destruct n, m. unfold er_n, set_ch. cbn. intros [= ]. done. Qed.
Lemma er_l_fields (n m : lnode V) : er_l n = er_l m -> l_id n = l_id m /\ l_val n = l_val m /\ l_key n = l_key m.
Proof. destruct n, m. unfold er_l, setl_ch. cbn. intros [= ]. done. Qed.
Lemma nrel_er1 b n m n' : er_n m = er_n n -> nrel b m n' -> nrel b n n'.
Proof. intros E [B1 B2 B3 B4 B5 B6 B7 B8]. apply er_n_fields in E as (E1&E2&E3&E4&E5&E6&E7&E8). rewrite E1, E2, E3, E4, E5, E6, E7, E8 in *. by split. Qed.
Lemma nrel_er2 b n m n' : er_n m = er_n n -> nrel b n' m -> nrel b n' n.
Proof. intros E [B1 B2 B3 B4 B5 B6 B7 B8]. apply er_n_fields in E as (E1&E2&E3&E4&E5&E6&E7&E8). rewrite E1, E2, E3, E4, E5, E6, E7, E8 in *. by split. Qed.
Lemma lrel_er1 n m n' : er_l m = er_l n -> lrel m n' -> lrel n n'.
Proof. intros E [B1 B2 B3]. apply er_l_fields in E as (E1&E2&E3). rewrite E1, E2, E3 in *. by split. Qed.
Lemma lrel_er2 n m n' : er_l m = er_l n -> lrel n' m -> lrel n' n.
Proof. intros E [B1 B2 B3]. apply er_l_fields in E as (E1&E2&E3). rewrite E1, E2, E3 in *. by split. Qed.
Lemma srel_N1 b h t h' t' x n : srel b h t h' t' -> (forall m, h_nodes h !! x = Some m -> er_n m = er_n n) -> (exists m, h_nodes h !! x = Some m) ->
  forall hh, hh = set_nodes h (<[x := n]> (h_nodes h)) -> srel b hh t h' t'.
Proof.
  intros [A1 A2 A3 A4 A5] E [m Hm] hh ->. specialize (E m Hm). split; try done. intros x2 y Hxy. destruct (A2 x2 y Hxy) as (n1 & n2 & E1 & E2 & B). cbn.
  destruct (decide (x2 = x)) as [->|Hne]; [|rewrite lookup_insert_ne by done; eexists _, _; split_and!; [done..|done]].
  rewrite lookup_insert. assert (m = n1) as <- by congruence. eexists _, _. split_and!; [done..|]. by eapply nrel_er1.
Qed.
Lemma srel_N2 b h t h' t' x n : srel b h t h' t' -> (forall m, h_nodes h' !! x = Some m -> er_n m = er_n n) -> (exists m, h_nodes h' !! x = Some m) ->
  forall hh, hh = set_nodes h' (<[x := n]> (h_nodes h')) -> srel b h t hh t'.
Proof.
  intros [A1 A2 A3 A4 A5] E [m Hm] hh ->. specialize (E m Hm). split; try done. intros x2 y Hxy. destruct (A2 x2 y Hxy) as (n1 & n2 & E1 & E2 & B). cbn.
  destruct (decide (y = x)) as [->|Hne]; [|rewrite lookup_insert_ne by done; eexists _, _; split_and!; [done..|done]].
  rewrite lookup_insert. assert (m = n2) as <- by congruence. eexists _, _. split_and!; [done..|]. by eapply nrel_er2.
Qed.
Lemma srel_L1 b h t h' t' x n : srel b h t h' t' -> (forall m, h_leaves h !! x = Some m -> er_l m = er_l n) -> (exists m, h_leaves h !! x = Some m) ->
  forall hh, hh = set_leaves h (<[x := n]> (h_leaves h)) -> srel b hh t h' t'.
Proof.
  intros [A1 A2 A3 A4 A5] E [m Hm] hh ->. specialize (E m Hm). split; try done. intros x2 y Hxy. destruct (A3 x2 y Hxy) as (n1 & n2 & E1 & E2 & B). cbn.
  destruct (decide (x2 = x)) as [->|Hne]; [|rewrite lookup_insert_ne by done; eexists _, _; split_and!; [done..|done]].
  rewrite lookup_insert. assert (m = n1) as <- by congruence. eexists _, _. split_and!; [done..|]. by eapply lrel_er1.
Qed.
Lemma srel_L2 b h t h' t' x n : srel b h t h' t' -> (forall m, h_leaves h' !! x = Some m -> er_l m = er_l n) -> (exists m, h_leaves h' !! x = Some m) ->
  forall hh, hh = set_leaves h' (<[x := n]> (h_leaves h')) -> srel b h t hh t'.
Proof.
  intros [A1 A2 A3 A4 A5] E [m Hm] hh ->. specialize (E m Hm). split; try done. intros x2 y Hxy. destruct (A3 x2 y Hxy) as (n1 & n2 & E1 & E2 & B). cbn.
  destruct (decide (y = x)) as [->|Hne]; [|rewrite lookup_insert_ne by done; eexists _, _; split_and!; [done..|done]].
  rewrite lookup_insert. assert (m = n2) as <- by congruence. eexists _, _. split_and!; [done..|]. by eapply lrel_er2.
Qed.
Lemma quietL_ok b {B} (c : cmd V B) h t h' t' : srel b h t h' t' -> quietL b c ->
  (exists x s, sem c (mkS h t) = (Ok x, s)) /\ forall x s, sem c (mkS h t) = (Ok x, s) -> srel b (s_h s) (s_t s) h' t' /\ h_next (s_h s) = h_next h.
Proof.
  intros S. destruct c as [| | | | | |x c|x c|x c|x c| |c| | | | |]; cbn; try done.
  - intros [y Hxy]. destruct (sr_N _ _ _ _ _ S x y Hxy) as (n & n' & E1 & E2 & _). unfold liftH, casChN, bind, hloadN; cbn. rewrite E1. destruct (n_ch n) as [c0|] eqn:Ec; cbn.
    + split; [eauto|]. intros ? ? [= <- <-]. done.
    + split; [eauto|]. intros ? ? [= <- <-]. cbn. split; [|done]. eapply srel_N1; [exact S|intros m Hm|eauto|reflexivity]; by simplify_eq.
  - intros [y Hxy]. destruct (sr_L _ _ _ _ _ S x y Hxy) as (n & n' & E1 & E2 & _). unfold liftH, casChL, bind, hloadL; cbn. rewrite E1. destruct (l_ch n) as [c0|] eqn:Ec; cbn.
    + split; [eauto|]. intros ? ? [= <- <-]. done.
    + split; [eauto|]. intros ? ? [= <- <-]. cbn. split; [|done]. eapply srel_L1; [exact S|intros m Hm|eauto|reflexivity]; by simplify_eq.
  - intros [y Hxy]. destruct (sr_N _ _ _ _ _ S x y Hxy) as (n & n' & E1 & E2 & _). unfold liftH, setMutateChN, bind, hloadN; cbn. rewrite E1. cbn.
    split; [eauto|]. intros ? ? [= <- <-]. cbn. split; [|done]. eapply srel_N1; [exact S|intros m Hm|eauto|reflexivity]; by simplify_eq.
  - intros [y Hxy]. destruct (sr_L _ _ _ _ _ S x y Hxy) as (n & n' & E1 & E2 & _). unfold liftH, setMutateChL, bind, hloadL; cbn. rewrite E1. cbn.
    split; [eauto|]. intros ? ? [= <- <-]. cbn. split; [|done]. eapply srel_L1; [exact S|intros m Hm|eauto|reflexivity]; by simplify_eq.
  - intros _. split; [eauto|]. intros ? ? [= <- <-]. cbn. split; [|done]. destruct S as [A1 A2 A3 A4 A5]. by split.
  - intros _. split; [eauto|]. intros ? ? [= <- <-]. cbn. destruct S as [A1 A2 A3 A4 A5]. case_bool_decide; (split; [by split|done]).
Qed.
Lemma quietR_ok b {B} (c : cmd V B) h t h' t' : srel b h t h' t' -> quietR b c ->
  exists x s, sem c (mkS h' t') = (Ok x, s) /\ srel b h t (s_h s) (s_t s).
Proof.
  intros S. destruct c as [| | | | | |x c|x c|x c|x c| |c| | | | |]; cbn; try done.
  - intros [y Hxy]. destruct (sr_N _ _ _ _ _ S y x Hxy) as (n & n' & E1 & E2 & _). unfold liftH, casChN, bind, hloadN; cbn. rewrite E2. destruct (n_ch n') as [c0|] eqn:Ec; cbn.
    + eauto.
    + eexists _, _. split; [done|]. eapply srel_N2; [exact S|intros m Hm|eauto|reflexivity]; by simplify_eq.
  - intros [y Hxy]. destruct (sr_L _ _ _ _ _ S y x Hxy) as (n & n' & E1 & E2 & _). unfold liftH, casChL, bind, hloadL; cbn. rewrite E2. destruct (l_ch n') as [c0|] eqn:Ec; cbn.
    + eauto.
    + eexists _, _. split; [done|]. eapply srel_L2; [exact S|intros m Hm|eauto|reflexivity]; by simplify_eq.
  - intros [y Hxy]. destruct (sr_N _ _ _ _ _ S y x Hxy) as (n & n' & E1 & E2 & _). unfold liftH, setMutateChN, bind, hloadN; cbn. rewrite E2. cbn.
    eexists _, _. split; [done|]. eapply srel_N2; [exact S|intros m Hm|eauto|reflexivity]; by simplify_eq.
  - intros [y Hxy]. destruct (sr_L _ _ _ _ _ S y x Hxy) as (n & n' & E1 & E2 & _). unfold liftH, setMutateChL, bind, hloadL; cbn. rewrite E2. cbn.
    eexists _, _. split; [done|]. eapply srel_L2; [exact S|intros m Hm|eauto|reflexivity]; by simplify_eq.
  - intros _. eexists _, _. split; [done|]. destruct S as [A1 A2 A3 A4 A5]. by split.
  - intros _. eexists _, _. split; [done|]. destruct S as [A1 A2 A3 A4 A5]. cbn. case_bool_decide; by split.
Qed.

(** The correspondence after both sides have created a cell *)
Definition addc (b : corr) (k0 : bool) (x0 y0 : addr) : corr := fun k x y => b k x y \/ (k = k0 /\ x = x0 /\ y = y0).
Lemma addc_bij b k0 x0 y0 : bij b -> (forall k x y, b k x y -> x < x0 /\ y < y0) -> bij (addc b k0 x0 y0).
Proof.
  intros Hb Hlt k x y x' y' [A|(-> & -> & ->)] [B|(E1 & -> & ->)].
  - by eapply Hb.
  - destruct (Hlt _ _ _ A). lia.
  - destruct (Hlt _ _ _ B). lia.
  - done.
Qed.
Lemma addc_le b k0 x0 y0 : cle b (addc b k0 x0 y0). Proof. intros k x y E. by left. Qed.

Lemma crel_ok b {B} (c c' : cmd V B) S h t h' t' : crel b B c c' S -> srel b h t h' t' ->
  (exists x s, sem c (mkS h t) = (Ok x, s)) /\ forall x s, sem c (mkS h t) = (Ok x, s) -> exists x' s' b', sem c' (mkS h' t') = (Ok x', s') /\
    kext b b' /\ srel b' (s_h s) (s_t s) (s_h s') (s_t s') /\ S b' x x' /\ (forall k u v, b' k u v -> b k u v \/ h_next h <= u) /\ h_next h <= h_next (s_h s).
Proof.
  intros Hc SR. pose proof SR as [A1 A2 A3 A4 A5]. pose proof (kext_refl b A1) as Kb.
  destruct Hc as [x y Hxy|x y Hxy|x y n n' Hxy Hn|x y l l' Hxy Hl|n n' Hn|l l' Hl| |t1 t1' Ht|x y Hxy|x y Hxy|]; cbn.
  - destruct (A2 x y Hxy) as (n & n' & E1 & E2 & Hn). unfold loadN, liftH, hloadN; cbn. rewrite E1, E2. split; [eauto|]. intros ? ? [= <- <-]. exists n', (mkS h' t'), b. cbn. split_and!; auto.
  - destruct (A3 x y Hxy) as (n & n' & E1 & E2 & Hn). unfold loadL, liftH, hloadL; cbn. rewrite E1, E2. split; [eauto|]. intros ? ? [= <- <-]. exists n', (mkS h' t'), b. cbn. split_and!; auto.
  - split; [unfold storeN, liftH; cbn; eauto|]. intros ? ? [= <- <-]. eexists tt, _, b. split; [done|]. cbn. split_and!; auto. split; cbn; auto.
    intros x2 y2 Hxy2. destruct (decide (x2 = x)) as [->|Hne].
    + assert (y2 = y) as -> by by apply (A1 _ _ _ _ _ Hxy2 Hxy). rewrite !lookup_insert. eauto.
    + assert (y2 <> y) by (intros ->; by apply Hne, (A1 _ _ _ _ _ Hxy2 Hxy)). rewrite !lookup_insert_ne by done. by apply A2.
  - split; [unfold storeL, liftH; cbn; eauto|]. intros ? ? [= <- <-]. eexists tt, _, b. split; [done|]. cbn. split_and!; auto. split; cbn; auto.
    intros x2 y2 Hxy2. destruct (decide (x2 = x)) as [->|Hne].
    + assert (y2 = y) as -> by by apply (A1 _ _ _ _ _ Hxy2 Hxy). rewrite !lookup_insert. eauto.
    + assert (y2 <> y) by (intros ->; by apply Hne, (A1 _ _ _ _ _ Hxy2 Hxy)). rewrite !lookup_insert_ne by done. by apply A3.
  - split; [unfold liftH; cbn; eauto|]. intros ? ? [= <- <-]. pose proof (addc_bij b true _ _ A1 A4) as Hb. pose proof (addc_le b true (h_next h) (h_next h')) as Le.
    eexists _, _, (addc b true (h_next h) (h_next h')). split; [done|]. cbn. split_and!; [by split| |by right|intros k u v [?|(-> & -> & ->)]; [by left|right; lia]|lia].
    split; cbn; [done| | | |by eapply trel_le|intros Hf; pose proof (sr_next _ _ _ _ _ SR Hf); lia].
    + intros x y [Hxy|(_ & -> & ->)].
      * destruct (A4 _ _ _ Hxy). rewrite !lookup_insert_ne by lia. destruct (A2 x y Hxy) as (m & m' & E1 & E2 & Hm). eexists _, _. split_and!; [done..|by eapply nrel_le].
      * rewrite !lookup_insert. eexists _, _. split_and!; [done..|by eapply nrel_le].
    + intros x y [Hxy|(? & -> & ->)]; [|done]. by apply A3.
    + intros k x y [Hxy|(_ & -> & ->)]; [|lia]. destruct (A4 _ _ _ Hxy). lia.
  - split; [unfold liftH; cbn; eauto|]. intros ? ? [= <- <-]. pose proof (addc_bij b false _ _ A1 A4) as Hb. pose proof (addc_le b false (h_next h) (h_next h')) as Le.
    eexists _, _, (addc b false (h_next h) (h_next h')). split; [done|]. cbn. split_and!; [by split| |by right|intros k u v [?|(-> & -> & ->)]; [by left|right; lia]|lia].
    split; cbn; [done| | | |by eapply trel_le|intros Hf; pose proof (sr_next _ _ _ _ _ SR Hf); lia].
    + intros x y [Hxy|(? & -> & ->)]; [|done]. destruct (A2 x y Hxy) as (m & m' & E1 & E2 & Hm). eexists _, _. split_and!; [done..|by eapply nrel_le].
    + intros x y [Hxy|(_ & -> & ->)].
      * destruct (A4 _ _ _ Hxy). rewrite !lookup_insert_ne by lia. by apply A3.
      * rewrite !lookup_insert. eauto.
    + intros k x y [Hxy|(_ & -> & ->)]; [|lia]. destruct (A4 _ _ _ Hxy). lia.
  - split; [unfold getT; eauto|]. intros ? ? [= <- <-]. exists t', (mkS h' t'), b. split_and!; auto.
  - split; [unfold putT; eauto|]. intros ? ? [= <- <-]. eexists tt, _, b. split; [done|]. cbn. split_and!; auto. by split.
  - split; [eauto|]. intros ? ? [= <- <-]. destruct (A2 x y Hxy) as (m & m' & E1 & E2 & Hm). rewrite E1, E2. eexists _, (mkS h' t'), b. split; [done|]. split_and!; auto.
  - split; [eauto|]. intros ? ? [= <- <-]. destruct (A3 x y Hxy) as (m & m' & E1 & E2 & Hm). rewrite E1, E2. eexists _, (mkS h' t'), b. split; [done|]. split_and!; auto.
  - split; [eauto|]. intros ? ? [= <- <-]. eexists _, (mkS h' t'), b. split; [done|]. split_and!; auto. intros Hf. pose proof (sr_next _ _ _ _ _ SR Hf). unfold walk_fuel. lia.
Qed.

(** ** One command of the first program, any number of commands of the second *)
Lemma run_do {A B} (c : cmd V B) (k : B -> prog V A) s x s' : sem c s = (Ok x, s') -> run (Do c k) s = run (k x) s'.
Proof. intros E. cbn [run]. unfold bind. by rewrite E. Qed.
Definition follow {A} (R : corr -> A -> A -> Prop) (b : corr) (p q : prog V A) h t h' t' : Prop :=
  match p with
  | PRet (Ok a) => (run q (mkS h' t')).1 = NoFuel \/ exists a' s', run q (mkS h' t') = (Ok a', s') /\ srel b h t (s_h s') (s_t s') /\ R b a a'
  | PRet Panic => (run q (mkS h' t')).1 = NoFuel \/ (run q (mkS h' t')).1 = Panic
  | PRet NoFuel => fo = false \/ (run q (mkS h' t')).1 = NoFuel
  | Do c k => (run q (mkS h' t')).1 = NoFuel \/
      (exists x s, sem c (mkS h t) = (Ok x, s)) /\ forall x s, sem c (mkS h t) = (Ok x, s) -> exists q' s' b', run q (mkS h' t') = run q' s' /\
        kext b b' /\ srel b' (s_h s) (s_t s) (s_h s') (s_t s') /\ prel R b' (k x) q' /\ (forall k u v, b' k u v -> b k u v \/ h_next h <= u) /\ h_next h <= h_next (s_h s)
  end.
Lemma prel_follow {A} (R : corr -> A -> A -> Prop) b p q h t h' t' : prel R b p q -> srel b h t h' t' -> follow R b p q h t h' t'.
Proof.
  intros Hp. revert h t h' t'. induction Hp as [b a a' Ha|b|b q Hfo|b p|b C c c' k k' S' Hc Hk IH|b C c k q Hq Hk IH|b C c k p Hq Hk IH]; intros h t h' t' SR; cbn [follow].
  - right. eexists _, _. split; [done|]. done.
  - by right.
  - by left.
  - destruct p as [[a| |]|C c k]; cbn; auto.
  - right. destruct (crel_ok _ _ _ _ _ _ _ _ Hc SR) as [X Y]. split; [done|]. intros x s E. destruct (Y x s E) as (x' & s' & b' & E' & K1 & S1 & HS & Hd & Hn).
    exists (k' x'), s', b'. split; [by apply run_do|]. split_and!; auto.
  - right. destruct (quietL_ok _ _ _ _ _ _ SR Hq) as [X Y]. split; [done|]. intros x s E. destruct (Y x s E) as [S1 Hn]. exists q, (mkS h' t'), b. split_and!; auto; [|lia].
    apply kext_refl, SR.
  - destruct (quietR_ok _ _ _ _ _ _ SR Hq) as (x & s & E & S1). specialize (IH x h t (s_h s) (s_t s) S1).
    assert (Er : run (Do c k) (mkS h' t') = run (k x) (mkS (s_h s) (s_t s))). { rewrite (run_do _ _ _ _ _ E). by destruct s. }
    unfold follow in *. rewrite Er. exact IH.
Qed.

(** ** Both programs run alone *)
Lemma prel_run {A} (R : corr -> A -> A -> Prop) b p q h t h' t' : prel R b p q -> srel b h t h' t' ->
  (run p (mkS h t)).1 = NoFuel \/ (run q (mkS h' t')).1 = NoFuel \/ ((run p (mkS h t)).1 = Panic /\ (run q (mkS h' t')).1 = Panic) \/
  exists a s a' s' b', run p (mkS h t) = (Ok a, s) /\ run q (mkS h' t') = (Ok a', s') /\ kext b b' /\ srel b' (s_h s) (s_t s) (s_h s') (s_t s') /\ R b' a a'.
Proof.
  revert b q h t h' t'. induction p as [o|C c k IH]; intros b q h t h' t' Hp SR; pose proof (prel_follow _ _ _ _ _ _ _ _ Hp SR) as F; cbn [follow] in F.
  - destruct o as [a| |]; cbn [run]; unfold lift; cbn.
    + destruct F as [F|(a' & s' & E & S & HR)]; [auto|]. do 3 right. exists a, (mkS h t), a', s', b. split_and!; auto. apply kext_refl, SR.
    + destruct F as [F|F]; auto.
    + auto.
  - destruct F as [F|[(x & s & E) F]]; [auto|]. destruct (F x s E) as (q' & s' & b' & Er & K1 & S1 & Hq & _). rewrite (run_do _ _ _ _ _ E), Er.
    destruct s as [h1 t1], s' as [h1' t1']. cbn in S1. destruct (IH x b' q' h1 t1 h1' t1' Hq S1) as [Z|[Z|[Z|Z]]]; auto.
    destruct Z as (a & s2 & a' & s2' & b2 & E1 & E2 & K2 & S2 & HR). do 3 right. exists a, s2, a', s2', b2. split_and!; auto. by eapply kext_trans.
Qed.
End Sim.
