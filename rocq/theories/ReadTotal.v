(** Every sequence of Next calls is determined and, in memories with a rank, ends. *)
From Verif Require Export ReadAlike SpecGraph.
From stdpp Require Import list.
Local Open Scope nat_scope.

Section Total.
Context {V : Type} `{GoZero V}.
Notation entry := (option ref).
Notation loop := (nat -> list entry -> outcome (option (bytes * V) * list entry)).

(** *** More fuel does not change a result *)
Definition loops (next : loop) : Prop := forall st, next 0 st = NoFuel /\ ((exists st2, forall f, next (S f) st = next f st2) \/ exists r, forall f, next (S f) st = r).
Definition mono {I A} (next : nat -> I -> outcome A) : Prop := forall f f' it, next f it <> NoFuel -> f <= f' -> next f' it = next f it.
Lemma loops_mono next : loops next -> mono next.
Proof.
  intros HL f. induction f as [|f IH]; intros f' st Hn Hle; [by destruct (HL st)|]. destruct f' as [|f']; [lia|]. destruct (proj2 (HL st)) as [[st2 E]|[r E]].
  - rewrite !E in *. apply IH; [done|lia].
  - by rewrite !E.
Qed.
Lemma loops_next (h : heap V) p : loops (fun f st => nextLoop f h p st).
Proof.
  intros st. split; [done|]. destruct st as [|[[a|la]|] st]; cbn [nextLoop]; [right; eauto| | |right; eauto].
  - destruct (h_nodes h !! a) as [n|]; [|right; eauto]. destruct (n_leaf n) as [la|]; [|left; eauto]. destruct (h_leaves h !! la) as [l|]; [|right; eauto].
    destruct (hasPrefix _ _); [right; eauto|left; eauto].
  - destruct (h_leaves h !! la) as [l|]; [|right; eauto]. destruct (_ && _); [right; eauto|left; eauto].
Qed.
Lemma loops_path (h : heap V) p : loops (fun f st => pathNextLoop f h p st).
Proof.
  intros st. split; [done|]. destruct st as [|[[a|la]|] st]; cbn [pathNextLoop]; [right; eauto| | |right; eauto].
  - destruct (h_nodes h !! a) as [n|]; [|right; eauto]. left. eauto.
  - destruct (h_leaves h !! la) as [l|]; [|right; eauto]. destruct (prefixContainsMatch _ _); [right; eauto|left; eauto].
Qed.
Lemma loops_lower (h : heap V) : loops (fun f st => lowerNextLoop f h st).
Proof.
  intros st. split; [done|]. destruct st as [|[[a|la]|] st]; cbn [lowerNextLoop]; [right; eauto| | |right; eauto].
  - destruct (h_nodes h !! a) as [n|]; [|right; eauto]. destruct (n_leaf n) as [la|]; [|left; eauto]. destruct (h_leaves h !! la) as [l|]; right; eauto.
  - destruct (h_leaves h !! la) as [l|]; right; eauto.
Qed.
Lemma loops_prev (h : heap V) p exp : loops (fun f st => prevLoop f h p exp st).
Proof.
  intros st. split; [done|]. destruct st as [|[[a|la]|] st]; cbn [prevLoop]; [right; eauto| | |right; eauto].
  - destruct (h_nodes h !! a) as [n|]; [|right; eauto]. destruct (n_leaf n) as [la|]; [destruct (h_leaves h !! la) as [l|]|]; cbn [obind]; [|right; eauto|].
    + destruct (bool_decide (a ∈ exp)); [left; eauto|]. destruct (hasPrefix _ _); [right; eauto|left; eauto].
    + destruct (bool_decide (a ∈ exp)); left; eauto.
  - destruct (h_leaves h !! la) as [l|]; [|right; eauto]. destruct (bytes_leb _ _); [right; eauto|left; eauto].
Qed.
Lemma mono_bind {I J A B} (next : nat -> I -> outcome A) (g : J -> I) (k : J -> A -> outcome B) : mono next -> mono (fun f it => let? r := next f (g it) in k it r).
Proof.
  intros HM f f' it Hn Hle. destruct (next f (g it)) as [r| |] eqn:E; cbn [obind] in *; [|..|done]; rewrite (HM f f' (g it)), E; try done; by rewrite E.
Qed.
Lemma mono_iterF (h : heap V) : mono (iterNextF h).
Proof.
  intros f f' it. unfold iterNextF. apply (mono_bind (fun f st => nextLoop f h (it_path it) st) (fun _ : unit => stackOf (it_stack it)) (fun _ '(r, st) => Ok (r, mkIt (it_path it) (it_node it) (Some st))) (loops_mono _ (loops_next h _)) f f' tt).
Qed.
Lemma mono_pathF (h : heap V) : mono (pathNextF h).
Proof.
  intros f f' it. unfold pathNextF. apply (mono_bind (fun f st => pathNextLoop f h (pi_path it) st) (fun _ : unit => pi_stack it) (fun _ '(r, st) => Ok (r, mkPI (pi_path it) st)) (loops_mono _ (loops_path h _)) f f' tt).
Qed.
Lemma mono_lowerF (h : heap V) : mono (lowerNextF h).
Proof.
  intros f f' it. unfold lowerNextF. apply (mono_bind (fun f st => lowerNextLoop f h st) (fun _ : unit => li_stack it) (fun _ '(r, st) => Ok (r, mkLI (li_node it) st)) (loops_mono _ (loops_lower h)) f f' tt).
Qed.
Lemma mono_prevF (h : heap V) : mono (prevF h).
Proof.
  intros f f' [it ex]. unfold prevF. cbn [ri_it ri_exp]. refine (mono_bind (fun f st => prevLoop f h (it_path it) ex st) (fun _ : unit => _) (fun _ '(r, st) => _) (loops_mono _ (loops_prev h _ _)) f f' tt).
Qed.

Lemma gives_det {I A} (next : nat -> I -> outcome (option A * I)) it l e : mono next -> gives next it l e -> forall l' e', gives next it l' e' -> l' = l /\ e' = e.
Proof.
  intros HM. assert (K : forall f f' it r r', next f it = r -> next f' it = r' -> r <> NoFuel -> r' <> NoFuel -> r = r').
  { intros f f' j r r' E E' Hn Hn'. destruct (Nat.le_ge_cases f f'); [rewrite <- E', (HM f f'); congruence|rewrite <- E, (HM f' f); congruence]. }
  intros G. induction G as [f it i1 E|f it E|f it x i1 l e E G IH]; intros l' e' G'; inversion G' as [f' ? i2 E'|f' ? E'|f' ? x' i2 l2 e2 E' G2]; subst;
    pose proof (K _ _ _ _ _ E E' ltac:(done) ltac:(done)) as Er; try done.
  injection Er as <- <-. destruct (IH l2 e' G2) as [-> ->]. done.
Qed.
Lemma seq_det {I A} (sk : outcome I) (next : nat -> I -> outcome (option A * I)) l e : mono next -> seq_of sk next l e -> forall l' e', seq_of sk next l' e' -> l' = l /\ e' = e.
Proof.
  intros HM G l' e' G'. destruct G as [E|it l e E G], G' as [E'|it' l' e' E' G']; try congruence; [done|]. assert (it' = it) as -> by congruence. by eapply gives_det.
Qed.

(** *** In a memory with a rank they end *)
Lemma gives_ends {I} (next : loop) (nextF : nat -> I -> outcome (option (bytes * V) * I)) (stk : I -> list entry) (ok : I -> Prop) st : ends next st ->
  (forall it f r, ok it -> next f (stk it) = r -> r <> NoFuel ->
     exists it', nextF f it = (let? '(x, _) := r in Ok (x, it')) /\ ok it' /\ forall x st', r = Ok (Some x, st') -> stk it' = st') ->
  forall it, ok it -> stk it = st -> exists l e, gives nextF it l e.
Proof.
  intros En HF. induction En as [st f r Hf Hn Hk IH]. intros it Ho Hs. specialize (Hf f (le_n f)). rewrite <- Hs in Hf. destruct (HF it f r Ho Hf Hn) as (it' & E & Ho' & Ht).
  destruct r as [[[x|] st']| |]; cbn in E; [| | |done].
  - destruct (IH x st' eq_refl it' Ho' (Ht _ _ eq_refl)) as (l & e & G). exists (x :: l), e. by eapply gives_more.
  - exists [], false. by eapply gives_end.
  - exists [], true. by eapply gives_panic.
Qed.
Variable h : heap V.
Hypothesis R : ranked h.
Lemma iter_ends it : exists l e, gives (iterNextF h) it l e.
Proof.
  destruct R as [rk Hr]. apply (gives_ends (fun f st => nextLoop f h (it_path it) st) _ (fun j => stackOf (it_stack j)) (fun j => it_path j = it_path it) (stackOf (it_stack it))); [by apply (ends_all rk), pops_next| |done|done].
  intros j f r Hj Hf Hn. unfold iterNextF. rewrite Hj, Hf. destruct r as [[x st']| |]; cbn [obind]; [|exists j; done|done]. eexists. split; [done|]. split; [done|]. by intros ? ? [= _ <-].
Qed.
Lemma path_ends it : exists l e, gives (pathNextF h) it l e.
Proof.
  destruct R as [rk Hr]. apply (gives_ends (fun f st => pathNextLoop f h (pi_path it) st) _ pi_stack (fun j => pi_path j = pi_path it) (pi_stack it)); [by apply (ends_all rk), pops_path| |done|done].
  intros j f r Hj Hf Hn. unfold pathNextF. rewrite Hj, Hf. destruct r as [[x st']| |]; cbn [obind]; [|exists j; done|done]. eexists. split; [done|]. split; [done|]. by intros ? ? [= _ <-].
Qed.
Lemma lower_ends it : exists l e, gives (lowerNextF h) it l e.
Proof.
  destruct R as [rk Hr]. apply (gives_ends (fun f st => lowerNextLoop f h st) _ li_stack (fun _ => True) (li_stack it)); [by apply (ends_all rk), pops_lower| |done|done].
  intros j f r Hj Hf Hn. unfold lowerNextF. rewrite Hf. destruct r as [[x st']| |]; cbn [obind]; [|exists j; done|done]. eexists. split; [done|]. split; [done|]. by intros ? ? [= _ <-].
Qed.
Definition rstack (ri : riter) : list entry := match it_stack (ri_it ri), it_node (ri_it ri) with None, Some nd => [Some nd] | o, _ => stackOf o end.
Lemma rev_ends it : exists l e, gives (prevF h) it l e.
Proof.
  destruct R as [rk Hr]. apply (gives_ends (fun f st => prevLoop f h (it_path (ri_it it)) (ri_exp it) st) _ rstack (fun j => it_path (ri_it j) = it_path (ri_it it) /\ ri_exp j = ri_exp it) (rstack it));
    [by apply (ends_all rk), pops_prev| |done|done].
  intros [j ex] f r [Hj He] Hf Hn. unfold prevF, rstack in *. cbn [ri_it ri_exp] in *. rewrite Hj, He, Hf. destruct r as [[x st']| |]; cbn [obind]; [|by exists (mkRI j ex)|done]. eexists. split; [done|]. split; [done|].
  intros ? ? [= -> <-]. cbn [ri_it it_stack it_node]. destruct (it_stack j) as [s|], (it_node j) as [nd|]; cbn; try done. cbn in Hf. by destruct f.
Qed.
Lemma seq_ends {I} (sk : outcome I) (nextF : nat -> I -> outcome (option (bytes * V) * I)) : sk <> NoFuel -> (forall it, exists l e, gives nextF it l e) -> exists l e, seq_of sk nextF l e.
Proof. intros Hs Hg. destruct sk as [it| |]; [|exists [], true; by constructor|done]. destruct (Hg it) as (l & e & G). exists l, e. by eapply so_gives. Qed.
Lemma total_left (h1 : heap V) t1 t : reads_alike h1 t1 h t -> reads_total h1 t1.
Proof.
  intros [A1 A2 A3 A4 A5 A6 AD A7 A8 A9 A10 A11 A12].
  assert (O : forall A (P P' : A -> bool -> Prop), (forall l e, P l e <-> P' l e) -> (exists l e, P' l e) -> (forall l e, P l e -> forall l' e', P l' e' -> l' = l /\ e' = e) -> one P).
  { intros A P P' HP (l & e & HE) HD. exists l, e. split; [by apply HP|]. apply HD. by apply HP. }
  split.
  - intros k. rewrite A2. apply nf_getFrom.
  - intros k. rewrite A3. apply nf_longestPrefix.
  - rewrite A4. by apply nf_treeMin.
  - rewrite A5. by apply nf_treeMax.
  - intros B fn acc. rewrite A6. by apply nf_walk.
  - rewrite AD. by apply nf_treeDfs.
  - intros p. eapply O; [apply A7| |intros; eapply seq_det; eauto using mono_iterF]. apply seq_ends; [by apply nf_seekPrefix|apply iter_ends].
  - intros p. eapply O; [apply A8| |intros; eapply gives_det; eauto using mono_pathF]. apply path_ends.
  - intros k. eapply O; [apply A9| |intros; eapply seq_det; eauto using mono_lowerF]. apply seq_ends; [by apply nf_seekLowerBound|apply lower_ends].
  - eapply O; [apply A10| |intros; eapply gives_det; eauto using mono_prevF]. apply rev_ends.
  - intros p. eapply O; [apply A11| |intros; eapply seq_det; eauto using mono_prevF]. apply seq_ends; [|apply rev_ends]. apply nf_bind; [by apply nf_seekPrefix|done].
  - intros k spare. eapply O; [apply A12| |intros; eapply seq_det; eauto using mono_prevF]. apply seq_ends; [by apply nf_seekReverse|apply rev_ends].
Qed.
End Total.
