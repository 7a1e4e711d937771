(** Routines on single nodes give corresponding results on corresponding nodes. *)
From Verif Require Export Sim TreeOps.
From stdpp Require Import list.
Local Open Scope nat_scope.

Section NodeRel.
Context {V : Type} `{GoZero V}.
Notation corr := (bool -> addr -> addr -> Prop).
Implicit Types b : corr.

Inductive orel {A B} (R : A -> B -> Prop) : outcome A -> outcome B -> Prop :=
| or_ok x y : R x y -> orel R (Ok x) (Ok y)
| or_panic : orel R Panic Panic
| or_nf : orel R NoFuel NoFuel.
Lemma orel_bind {A A' B B'} (R : A -> A' -> Prop) (S : B -> B' -> Prop) o o' f g :
  orel R o o' -> (forall x y, R x y -> orel S (f x) (g y)) -> orel S (match o with Ok a => f a | Panic => Panic | NoFuel => NoFuel end) (match o' with Ok a => g a | Panic => Panic | NoFuel => NoFuel end).
Proof. intros [x y E| |] Hf; [auto|constructor..]. Qed.
Lemma orel_eq {A} (o : outcome A) : orel eq o o. Proof. destruct o; by constructor. Qed.
Lemma orel_mono {A B} (R S : A -> B -> Prop) o o' : (forall x y, R x y -> S x y) -> orel R o o' -> orel S o o'.
Proof. intros HS []; constructor; auto. Qed.

Lemma nrel_set_id b n n' x : nrel b n n' -> nrel b (set_id n x) (set_id n' x). Proof. intros []; by split. Qed.
Lemma nrel_set_plen b n n' x : nrel b n n' -> nrel b (set_plen n x) (set_plen n' x). Proof. intros []; by split. Qed.
Lemma nrel_set_nch b n n' x : nrel b n n' -> nrel b (set_nch n x) (set_nch n' x). Proof. intros []; by split. Qed.
Lemma nrel_set_partial b n n' x : nrel b n n' -> nrel b (set_partial n x) (set_partial n' x). Proof. intros []; by split. Qed.
Lemma nrel_set_keys b n n' x : nrel b n n' -> nrel b (set_keys n x) (set_keys n' x). Proof. intros []; by split. Qed.
Lemma nrel_set_children b n n' x y : nrel b n n' -> Forall2 (oR (b true)) x y -> nrel b (set_children n x) (set_children n' y). Proof. intros []; by split. Qed.
Lemma nrel_set_ch b n n' x y : nrel b n n' -> nrel b (set_ch n x) (set_ch n' y). Proof. intros []; by split. Qed.
Lemma nrel_set_leaf b n n' x y : nrel b n n' -> oR (b false) x y -> nrel b (set_leaf n x) (set_leaf n' y). Proof. intros []; by split. Qed.
Lemma lrel_set_id (l l' : lnode V) x : lrel l l' -> lrel (setl_id l x) (setl_id l' x). Proof. intros []; by split. Qed.
Lemma lrel_set_val (l l' : lnode V) x : lrel l l' -> lrel (setl_val l x) (setl_val l' x). Proof. intros []; by split. Qed.
Lemma lrel_set_key (l l' : lnode V) x : lrel l l' -> lrel (setl_key l x) (setl_key l' x). Proof. intros []; by split. Qed.
Lemma lrel_set_ch (l l' : lnode V) x y : lrel l l' -> lrel (setl_ch l x) (setl_ch l' y). Proof. intros []; by split. Qed.
Lemma nrel_zero b k : nrel b (zero_node k) (zero_node k).
Proof. split; try done; cbn; [|constructor]. apply Forall2_replicate. constructor. Qed.

Lemma oR_default b cs cs' i : Forall2 (oR (b true)) cs cs' -> oR (b true) (default None (cs !! i)) (default None (cs' !! i)).
Proof.
  intros Hf. destruct (cs !! i) as [x|] eqn:E.
  - destruct (Forall2_lookup_l _ _ _ _ _ Hf E) as (y & -> & Hy). done.
  - apply Forall2_length in Hf. apply lookup_ge_None in E. rewrite (proj2 (lookup_ge_None cs' i)) by lia. constructor.
Qed.
Lemma isLeafN_rel b n n' : nrel b n n' -> isLeafN n = isLeafN n'.
Proof. intros [A1 A2 A3 A4 A5 A6 A7 A8]. unfold isLeafN. rewrite A4. by destruct A8. Qed.
Lemma getChild_rel b n n' i : nrel b n n' -> orel (oR (b true)) (getChild n i) (getChild n' i).
Proof.
  intros [A1 A2 A3 A4 A5 A6 A7 A8]. unfold getChild. rewrite A1.
  assert (G : orel (oR (b true)) (match n_children n !! i with Some c => Ok c | None => Panic end) (match n_children n' !! i with Some c => Ok c | None => Panic end)).
  { destruct (n_children n !! i) as [x|] eqn:E.
    - destruct (Forall2_lookup_l _ _ _ _ _ A7 E) as (y & -> & Hy). by constructor.
    - apply Forall2_length in A7. apply lookup_ge_None in E. rewrite (proj2 (lookup_ge_None (n_children n') i)) by lia. constructor. }
  destruct (n_kind n'); try exact G. constructor. by apply oR_default.
Qed.
Lemma setChildN_rel b n n' i c c' : nrel b n n' -> oR (b true) c c' -> orel (nrel b) (setChildN n i c) (setChildN n' i c').
Proof.
  intros Hn Hc. unfold setChildN. rewrite (Forall2_length _ _ _ (nr_children _ _ _ Hn)). destruct (i <? _); constructor.
  apply nrel_set_children; [done|]. apply Forall2_insert; [apply Hn|done].
Qed.
Lemma getKeyAtIdx_rel b n n' i : nrel b n n' -> getKeyAtIdx n i = getKeyAtIdx n' i.
Proof. intros [A1 A2 A3 A4 A5 A6 A7 A8]. unfold getKeyAtIdx. by rewrite A1, A6. Qed.
Lemma setKeyAtIdx_rel b n n' i k : nrel b n n' -> orel (nrel b) (setKeyAtIdx n i k) (setKeyAtIdx n' i k).
Proof.
  intros Hn. unfold setKeyAtIdx. rewrite (nr_kind _ _ _ Hn), (nr_keys _ _ _ Hn).
  destruct (n_kind n'), (i <? length (n_keys n')); constructor; try done; by apply nrel_set_keys.
Qed.
Definition fcrel b (x y : option addr * nat) : Prop := oR (b true) x.1 y.1 /\ x.2 = y.2.
Lemma findChild_rel b n n' c : nrel b n n' -> orel (fcrel b) (findChild n c) (findChild n' c).
Proof.
  intros Hn. unfold findChild. rewrite (nr_kind _ _ _ Hn), (nr_keys _ _ _ Hn), (nr_nch _ _ _ Hn).
  assert (N : fcrel b (None, 0) (None, 0)) by (split; [constructor|done]).
  destruct (n_kind n') eqn:Ek.
  1,2: destruct (_ && _); [|by constructor]; eapply orel_bind; [by apply getChild_rel|]; intros x y Hx; constructor; by split.
  - rewrite (getKeyAtIdx_rel _ _ _ c Hn). destruct (getKeyAtIdx n' c) as [i| |]; cbn; [|constructor..]. destruct (i =? 0); [by constructor|].
    eapply orel_bind; [by apply getChild_rel|]. intros x y Hx; constructor; by split.
  - eapply orel_bind; [by apply getChild_rel|]. intros x y []; by repeat constructor.
Qed.
Lemma F2_slice b (l l' : list (option addr)) i j : Forall2 (oR (b true)) l l' -> Forall2 (oR (b true)) (slice l i j) (slice l' i j).
Proof. intros. by apply Forall2_take, Forall2_drop. Qed.
Lemma F2_copy b (d d' s s' : list (option addr)) i : Forall2 (oR (b true)) d d' -> Forall2 (oR (b true)) s s' -> Forall2 (oR (b true)) (go_copy d i s) (go_copy d' i s').
Proof.
  intros A B. unfold go_copy. cbv zeta. rewrite (Forall2_length _ _ _ A), (Forall2_length _ _ _ B). apply Forall2_app; [by apply Forall2_take|].
  apply Forall2_app; [by apply Forall2_take|by apply Forall2_drop].
Qed.
Lemma F2_clear b (d d' : list (option addr)) i : Forall2 (oR (b true)) d d' -> Forall2 (oR (b true)) (clear_from d i) (clear_from d' i).
Proof. intros A. unfold clear_from. rewrite (Forall2_length _ _ _ A). apply Forall2_app; [by apply Forall2_take|]. apply Forall2_replicate. constructor. Qed.
Lemma insertSorted_rel b n n' c x x' : nrel b n n' -> b true x x' -> orel (nrel b) (insertSorted n c x) (insertSorted n' c x').
Proof.
  intros Hn Hx. unfold insertSorted. cbv zeta. rewrite (nr_keys _ _ _ Hn), (nr_nch _ _ _ Hn). cbn [n_keys set_keys n_children].
  eapply orel_bind.
  { eapply setKeyAtIdx_rel, nrel_set_children; [by apply nrel_set_keys|]. apply F2_copy; [apply Hn|]. apply F2_slice, Hn. }
  intros m m' Hm. eapply orel_bind; [by apply setChildN_rel; [|constructor]|]. intros m2 m2' Hm2. constructor. rewrite (nr_nch _ _ _ Hm2). by apply nrel_set_nch.
Qed.
Lemma copyHeader_rel b d d' n n' : nrel b d d' -> nrel b n n' -> orel (nrel b) (copyHeader d n) (copyHeader d' n').
Proof.
  intros Hd Hn. unfold copyHeader. cbv zeta. rewrite (nr_plen _ _ _ Hn), (nr_partial _ _ _ Hd), (nr_partial _ _ _ Hn), (nr_nch _ _ _ Hn). cbn [n_partial set_plen set_nch]. rewrite (nr_partial _ _ _ Hd).
  destruct (_ && _); constructor. by apply nrel_set_partial, nrel_set_plen, nrel_set_nch.
Qed.
Lemma fill48_rel b n n' is_ : nrel b n n' -> forall d d', nrel b d d' -> orel (nrel b) (fill48 d n is_) (fill48 d' n' is_).
Proof.
  intros Hn. induction is_ as [|i is_ IH]; intros d d' Hd; cbn [fill48]; [by constructor|]. rewrite (getKeyAtIdx_rel _ _ _ i Hn).
  destruct (getKeyAtIdx n' i) as [k| |]; cbn; [|constructor..]. eapply orel_bind; [by apply setKeyAtIdx_rel|]. auto.
Qed.
Lemma free_slot_rel b cs cs' : Forall2 (oR (b true)) cs cs' -> forall i, free_slot cs i = free_slot cs' i.
Proof. induction 1 as [|x y cs cs' [] _ IH]; intros i; cbn [free_slot]; auto. Qed.
Lemma insert48_rel b n n' c x x' : nrel b n n' -> b true x x' -> orel (nrel b) (insert48 n c x) (insert48 n' c x').
Proof.
  intros Hn Hx. unfold insert48. rewrite (free_slot_rel _ _ _ (nr_children _ _ _ Hn)). destruct (free_slot _ _) as [i| |]; cbn; [|constructor..].
  eapply orel_bind; [by apply setChildN_rel; [|constructor]|]. intros m m' Hm. eapply orel_bind; [by apply setKeyAtIdx_rel|]. intros m2 m2' Hm2. constructor. rewrite (nr_nch _ _ _ Hm2). by apply nrel_set_nch.
Qed.
Lemma fill256_rel b n n' is_ : nrel b n n' -> forall d d', nrel b d d' -> orel (nrel b) (fill256 d n is_) (fill256 d' n' is_).
Proof.
  intros Hn. induction is_ as [|i is_ IH]; intros d d' Hd; cbn [fill256]; [by constructor|]. rewrite (getKeyAtIdx_rel _ _ _ i Hn).
  destruct (getKeyAtIdx n' i) as [k| |]; cbn; [|constructor..]. destruct (k =? 0); [auto|]. eapply orel_bind; [by apply getChild_rel|]. intros c c' Hc.
  eapply orel_bind; [by apply setChildN_rel|]. auto.
Qed.
Lemma insert256_rel b n n' c x x' : nrel b n n' -> b true x x' -> orel (nrel b) (insert256 n c x) (insert256 n' c x').
Proof. intros Hn Hx. unfold insert256. cbv zeta. rewrite (nr_nch _ _ _ Hn). apply setChildN_rel; [by apply nrel_set_nch|by constructor]. Qed.
Lemma shift_rel b is_ : forall cs cs' s pos, Forall2 (oR (b true)) cs cs' -> Forall2 (oR (b true)) (shift_loop cs s pos is_) (shift_loop cs' s pos is_).
Proof.
  induction is_ as [|i is_ IH]; intros cs cs' s pos Hc; cbn [shift_loop]; [done|]. destruct (i =? pos); [auto|]. apply IH, Forall2_insert; [done|]. by apply oR_default.
Qed.
Lemma omap_rel b cs cs' : Forall2 (oR (b true)) cs cs' -> Forall2 (b true) (omap id cs) (omap id cs').
Proof. induction 1 as [|x y cs cs' [] _ IH]; cbn; [constructor| |done]. by constructor. Qed.
Definition rsrel b (x y : list addr * inode) : Prop := Forall2 (b true) x.1 y.1 /\ nrel b x.2 y.2.
Lemma removeSorted_rel b n n' c : nrel b n n' -> orel (rsrel b) (removeSorted n c) (removeSorted n' c).
Proof.
  intros Hn. unfold removeSorted. cbv zeta. rewrite (nr_keys _ _ _ Hn), (nr_nch _ _ _ Hn). cbn [n_keys set_keys n_children set_children n_nch]. rewrite (nr_nch _ _ _ Hn).
  destruct (_ <? _); constructor. split; cbn.
  - apply omap_rel, Forall2_drop, shift_rel, Hn.
  - apply nrel_set_nch, nrel_set_children; [by apply nrel_set_keys|]. apply F2_clear, shift_rel, Hn.
Qed.
Lemma fill16_rel b n n' is_ : nrel b n n' -> forall d d' i, nrel b d d' -> orel (nrel b) (fill16 d n i is_) (fill16 d' n' i is_).
Proof.
  intros Hn. induction is_ as [|i is_ IH]; intros d d' j Hd; cbn [fill16]; [by constructor|]. rewrite (getKeyAtIdx_rel _ _ _ i Hn).
  destruct (getKeyAtIdx n' i) as [k| |]; cbn; [|constructor..]. destruct (k =? 0); [auto|].
  eapply orel_bind; [by apply setKeyAtIdx_rel|]. intros m m' Hm. eapply orel_bind; [by apply getChild_rel|]. intros c c' Hc.
  eapply orel_bind; [by apply setChildN_rel|]. auto.
Qed.
Lemma fill48from256_rel b n n' is_ : nrel b n n' -> forall d d' i, nrel b d d' -> orel (nrel b) (fill48from256 d n i is_) (fill48from256 d' n' i is_).
Proof.
  intros Hn. induction is_ as [|i is_ IH]; intros d d' j Hd; cbn [fill48from256]; [by constructor|].
  eapply orel_bind; [by apply getChild_rel|]. intros c c' [x y Hx|]; [|auto].
  eapply orel_bind; [by apply setChildN_rel; [|constructor]|]. intros m m' Hm. eapply orel_bind; [by apply setKeyAtIdx_rel|]. auto.
Qed.
Lemma mergePrefix_rel b n n' c c' : nrel b n n' -> nrel b c c' -> orel (fun x y => x.1 = y.1 /\ nrel b x.2 y.2) (mergePrefix n c) (mergePrefix n' c').
Proof.
  intros Hn Hc. unfold mergePrefix. cbv zeta. rewrite (nr_plen _ _ _ Hn), (nr_partial _ _ _ Hn), (nr_plen _ _ _ Hc), (nr_partial _ _ _ Hc), (getKeyAtIdx_rel _ _ _ 0 Hn).
  eapply orel_bind; [apply orel_eq|]. intros [p1 x1] ? <-. eapply orel_bind; [apply orel_eq|]. intros [p2 x2] ? <-. destruct (_ <? _); constructor.
  split; [done|]. by apply nrel_set_plen, nrel_set_partial.
Qed.
Lemma first256_rel b cs cs' : Forall2 (oR (b true)) cs cs' -> oR (b true) (first_child256 cs) (first_child256 cs').
Proof. induction 1 as [|x y cs cs' [] _ IH]; cbn [first_child256]; [constructor|by constructor|done]. Qed.
Lemma minChild_rel b n n' : nrel b n n' -> orel (oR (b true)) (minChild n) (minChild n').
Proof.
  intros Hn. unfold minChild. rewrite (nr_kind _ _ _ Hn), (nr_keys _ _ _ Hn). destruct (n_kind n'); try by apply getChild_rel.
  - rewrite (getKeyAtIdx_rel _ _ _ _ Hn). destruct (getKeyAtIdx _ _); cbn; [|constructor..]. destruct (_ <? _); [by apply getChild_rel|]. repeat constructor.
  - constructor. apply first256_rel, Hn.
Qed.
Lemma maxChild_rel b n n' : nrel b n n' -> orel (oR (b true)) (maxChild n) (maxChild n').
Proof.
  intros Hn. unfold maxChild. rewrite (nr_kind _ _ _ Hn), (nr_keys _ _ _ Hn), (nr_nch _ _ _ Hn). destruct (n_kind n'); try by apply getChild_rel.
  - destruct (_ <? _); [|constructor]. rewrite (getKeyAtIdx_rel _ _ _ _ Hn). destruct (getKeyAtIdx _ _); cbn; [|constructor..]. destruct (_ <? _); [by apply getChild_rel|]. repeat constructor.
  - constructor. apply first256_rel, Forall2_reverse, Hn.
Qed.
Definition mrel b (m m' : list (nat * option addr)) : Prop := Forall2 (fun x y => x.1 = y.1 /\ oR (b true) x.2 y.2) m m'.
Lemma find_rel b m m' i : mrel b m m' ->
  match list_find (fun e => e.1 = i) m, list_find (fun e => e.1 = i) m' with
  | Some (_, (_, o)), Some (_, (_, o')) => oR (b true) o o' | None, None => True | _, _ => False end.
Proof.
  induction 1 as [|[x o] [y o'] m m' [E Ho] _ IH]; cbn [list_find]; [done|]. cbn in *. subst y. case_decide; [done|].
  destruct (list_find (fun e => e.1 = i) m) as [[j [? ?]]|], (list_find (fun e => e.1 = i) m') as [[j' [? ?]]|]; cbn in *; done.
Qed.
Lemma compact_rel b m m' is_ : mrel b m m' -> forall n n' s c, nrel b n n' -> orel (fun x y => nrel b x.1.1 y.1.1 /\ x.1.2 = y.1.2 /\ x.2 = y.2) (compact_loop m n s c is_) (compact_loop m' n' s c is_).
Proof.
  intros Hm. induction is_ as [|i is_ IH]; intros n n' s c Hn; cbn [compact_loop]; [by constructor|]. pose proof (find_rel b m m' i Hm) as F.
  destruct (list_find (fun e => e.1 = i) m) as [[j [? o]]|], (list_find (fun e => e.1 = i) m') as [[j' [? o']]|]; try done.
  - destruct F as [x y Hx|]; [|auto]. eapply orel_bind; [by apply setChildN_rel; [|constructor]|]. auto.
  - eapply orel_bind; [by apply getChild_rel|]. intros x y Hx. eapply orel_bind; [by apply setChildN_rel|]. auto.
Qed.
End NodeRel.
