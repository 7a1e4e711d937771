(** Corresponding trees cannot be told apart by reading them. *)
From Verif Require Export ReadRel SpecReads Acyclic.
From stdpp Require Import list.
Local Open Scope nat_scope.

Section Alike.
Context {V : Type} `{GoZero V}.
Notation corr := (bool -> addr -> addr -> Prop).

Lemma gives_rel {I J X} (P : I -> J -> Prop) (nxt : nat -> I -> outcome (option X * I)) (nxt' : nat -> J -> outcome (option X * J)) it it' l e :
  (forall f it it', P it it' -> orel (nxR P) (nxt f it) (nxt' f it')) -> P it it' -> gives nxt it l e <-> gives nxt' it' l e.
Proof.
  intros Hn HP. split.
  - intros G. revert it' HP. induction G as [f it i1 E|f it E|f it x i1 l e E G IH]; intros it' HP; pose proof (Hn f it it' HP) as K; rewrite E in K; inversion K as [r [o j] [K1 K2] Ka Kb|Ka Kb|]; subst; cbn in *; subst.
    + by eapply gives_end.
    + by eapply gives_panic.
    + eapply gives_more; [done|]. by apply IH.
  - intros G. revert it HP. induction G as [f it' i1 E|f it' E|f it' x i1 l e E G IH]; intros it HP; pose proof (Hn f it it' HP) as K; rewrite E in K; inversion K as [[o j] r [K1 K2] Ka Kb|Ka Kb|]; subst; cbn in *; subst.
    + by eapply gives_end.
    + by eapply gives_panic.
    + eapply gives_more; [done|]. by apply IH.
Qed.
Lemma seq_rel {I J X} (P : I -> J -> Prop) (sk : outcome I) (sk' : outcome J) (nxt : nat -> I -> outcome (option X * I)) (nxt' : nat -> J -> outcome (option X * J)) l e :
  orel P sk sk' -> (forall f it it', P it it' -> orel (nxR P) (nxt f it) (nxt' f it')) -> seq_of sk nxt l e <-> seq_of sk' nxt' l e.
Proof.
  intros Hs Hn. destruct Hs as [x y Hx| |].
  - split; intros [E|it l1 e1 [= <-] G]; try done; (eapply so_gives; [done|]); by apply (gives_rel P nxt nxt' x y).
  - split; intros [E|it l1 e1 E G]; try done; by constructor.
  - split; by intros [E|it l1 e1 E G].
Qed.

Lemma rl_orel {A B} (R : A -> B -> Prop) o o' : rl False R o o' -> orel R o o'.
Proof. intros [x y HH| | |? []|? []]; [by apply or_ok|apply or_panic|apply or_nf]. Qed.
Lemma rl_total {A B} (P : Prop) (R : A -> B -> Prop) o o' : rl P R o o' -> o <> NoFuel -> o' <> NoFuel -> orel R o o'.
Proof. intros []; by try constructor. Qed.
Lemma orel_eqo {A} (o o' : outcome A) : orel eq o o' -> o = o'.
Proof. by intros [? ? ->| |]. Qed.

(** ** The walks on the left end as well *)
Section Both.
Variables (b : corr) (h h' : heap V).
Hypothesis HR : hrel b h h'.
Hypothesis R' : ranked h'.

(** A read on the left ends if it does in every memory with a rank. *)
Lemma ends_left {A B} (R : A -> B -> Prop) (o : heap V -> outcome A) (o' : outcome B) :
  (forall h0, ranked h0 -> hrel (idc b) h0 h -> walk_fuel h0 = walk_fuel h -> o h0 <> NoFuel /\ exists R0, rl False R0 (o h0) (o h)) ->
  rl True R (o h) o' -> o' <> NoFuel -> orel R (o h) o'.
Proof.
  intros Ho Hrl Hn. eapply rl_total; [exact Hrl| |exact Hn]. intros E. apply (left_ends b h h' HR R'). intros (h0 & Hr0 & HR0 & _ & Hf). destruct (Ho h0 Hr0 HR0 (f_equal S Hf)) as [Hn0 [R0 K]].
  rewrite E in K. inversion K; congruence.
Qed.
Lemma fT f f' : fl True f f'. Proof. by left. Qed.
Hint Resolve fT : core.
Variables (t t' : rtree).
Hypothesis Ht : b true (r_root t) (r_root t').
Hypothesis Hlen : r_size t = r_size t'.
Lemma root_idc : idc b true (r_root t) (r_root t). Proof. split; [done|]. by exists (r_root t'). Qed.
Lemma fF f f' : f = f' -> fl False f f'. Proof. by right. Qed.
Hint Resolve fF : core.

Lemma alike : reads_alike h t h' t'.
Proof.
  split.
  - done.
  - intros k. apply orel_eqo. eapply rl_total; [by eapply (rr_getFrom True); eauto|apply nf_getFrom..].
  - intros k. apply orel_eqo. eapply rl_total; [by eapply (rr_longestPrefix True); eauto|apply nf_longestPrefix..].
  - apply orel_eqo. apply (ends_left _ (fun h => treeMinimum h t)); [|by eapply rr_treeMinimum; eauto|by apply nf_treeMin].
    intros h0 Hr0 HR0 Hf. split; [by apply nf_treeMin|]. eexists. eapply rr_treeMinimum; eauto using root_idc.
  - apply orel_eqo. apply (ends_left _ (fun h => treeMaximum h t)); [|by eapply rr_treeMaximum; eauto|by apply nf_treeMax].
    intros h0 Hr0 HR0 Hf. split; [by apply nf_treeMax|]. eexists. eapply rr_treeMaximum; eauto using root_idc.
  - intros B fn acc. apply orel_eqo. apply (ends_left _ (fun h => treeWalk fn h t acc)); [|by eapply rr_treeWalk; eauto|by apply nf_walk].
    intros h0 Hr0 HR0 Hf. split; [by apply nf_walk|]. eexists. eapply rr_treeWalk; eauto using root_idc.
  - apply orel_eqo. apply (ends_left _ (fun h => treeDfs h t)); [|by eapply rr_treeDfs; eauto|by apply nf_treeDfs].
    intros h0 Hr0 HR0 Hf. split; [by apply nf_treeDfs|]. eexists. eapply rr_treeDfs; eauto using root_idc.
  - intros p l e. eapply (seq_rel (itR b)); [|intros; eapply rl_orel, rr_iterNext; eauto].
    apply (ends_left _ (fun h => seekPrefix h (newIter (r_root t)) p)); [|eapply rr_seekPrefix; eauto using itR_new|by apply nf_seekPrefix].
    intros h0 Hr0 HR0 Hf. split; [by apply nf_seekPrefix|]. eexists. eapply rr_seekPrefix; eauto using root_idc, itR_new.
  - intros p l e. eapply (gives_rel (piR b)); [intros; eapply rl_orel, rr_pathNext; eauto|]. by apply piR_new.
  - intros k l e. eapply (seq_rel (liR b)); [|intros; eapply rl_orel, rr_lowerNext; eauto].
    apply (ends_left _ (fun h => seekLowerBound h (newLowerIter (r_root t)) k)); [|eapply rr_seekLowerBound; eauto using liR_new|by apply nf_seekLowerBound].
    intros h0 Hr0 HR0 Hf. split; [by apply nf_seekLowerBound|]. eexists. eapply rr_seekLowerBound; eauto using root_idc, liR_new.
  - intros l e. eapply (gives_rel (riR b)); [intros; eapply rl_orel, rr_prev; eauto|]. by apply riR_new.
  - intros p l e. eapply (seq_rel (riR b)); [|intros; eapply rl_orel, rr_prev; eauto].
    assert (NF : forall h0 : heap V, ranked h0 -> forall it, revSeekPrefix h0 it p <> NoFuel) by (intros; apply nf_bind; [by apply nf_seekPrefix|done]).
    apply (ends_left _ (fun h => revSeekPrefix h (newRevIter (r_root t)) p)); [|eapply rr_revSeekPrefix; eauto using riR_new|by apply NF].
    intros h0 Hr0 HR0 Hf. split; [by apply NF|]. eexists. eapply rr_revSeekPrefix; eauto using root_idc, riR_new.
  - intros k spare l e. eapply (seq_rel (riR b)); [|intros; eapply rl_orel, rr_prev; eauto].
    apply (ends_left _ (fun h => seekReverseLowerBound h (newRevIter (r_root t)) k spare)); [|eapply rr_seekReverse; eauto using riR_new|by apply nf_seekReverse].
    intros h0 Hr0 HR0 Hf. split; [by apply nf_seekReverse|]. eexists. eapply rr_seekReverse; eauto using root_idc, riR_new.
Qed.
End Both.
End Alike.
