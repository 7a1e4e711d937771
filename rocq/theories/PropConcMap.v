(** Concurrent goroutines and reference maps (C56). *)
From Verif Require Import ConcMap Serial ReadTotal PropSerial PropWorldRef PropMap.
From Verif Require Import SpecConcMap.
From stdpp Require Import list.
Local Open Scope nat_scope.

Section Lemmas.
Context {V : Type} `{GoZero V}.
Lemma yields_gives {I A} (next : I -> outcome (option A * I)) (nextF : nat -> I -> outcome (option A * I)) f it l : (forall it, nextF f it = next it) -> yields next it l -> gives nextF it l false.
Proof. intros HE Y. induction Y as [it it' E|it x it' l E Y IH]; [eapply gives_end; by rewrite HE|eapply gives_more; [by rewrite HE|done]]. Qed.
Lemma answers (h : heap V) (t : rtree) (h' : heap V) (t' : rtree) (m : gmap (list nat) V) : reads_alike h t h' t' -> reads_as h' (r_root t') m -> answers_as h t m.
Proof.
  intros A [B1 B2 B3 B4 B5 B6 B7 B8 B9 BD]. split.
  - intros k Hk. rewrite (SpecReads.ra_get _ _ _ _ A). by apply B1.
  - intros p Hp Hl Hm. destruct (B2 p Hp Hl Hm) as (l & (it & Es & Y) & Hw & Ha). exists l. split; [|done]. apply (SpecReads.ra_iter _ _ _ _ A). eapply so_gives; [done|]. by eapply (yields_gives (iterNext h') _ (walk_fuel h')).
  - intros p. destruct (B3 p) as (l & Y & Hw & Ha). exists l. split; [|done]. apply (SpecReads.ra_path _ _ _ _ A). by eapply (yields_gives (pathNext h') _ (walk_fuel h')).
  - intros Hm. destruct t' as [a s x]. destruct (B4 Hm s x) as (k & v & k' & v' & E1 & E2 & K). exists k, v, k', v'. rewrite (ra_min _ _ _ _ A), (ra_max _ _ _ _ A). done.
  - intros Hm. destruct (B5 Hm) as (it & l & E & Y & K). exists l. split; [|done]. apply (SpecReads.ra_lower _ _ _ _ A). eapply so_gives; [done|]. by eapply (yields_gives (lowerNext h') _ (walk_fuel h')).
  - intros Hm Hp Hn k l e Hk G. apply (SpecReads.ra_lower _ _ _ _ A) in G. inversion G as [E E1 E2|it l' e' E G' E1 E2]; [by left|subst l' e'; right].
    destruct (B6 Hm Hp Hn k it Hk E) as (l' & Y & K). apply (yields_gives (lowerNext h') (lowerNextF h') (walk_fuel h')) in Y; [|done].
    destruct (gives_det _ _ _ _ (mono_lowerF _) Y _ _ G') as [-> ->]. done.
  - intros Hm He. destruct (B7 Hm He) as (l & Y & K). exists l. split; [|done]. apply (SpecReads.ra_reverse _ _ _ _ A). by eapply (yields_gives (prev h') _ (walk_fuel h')).
  - intros He p Hp Hl Hk. destruct (B8 He p Hp Hl Hk) as (ri & l & E & Y & K). exists l. split; [|done]. apply (SpecReads.ra_revprefix _ _ _ _ A). eapply so_gives; [done|]. by eapply (yields_gives (prev h') _ (walk_fuel h')).
  - intros Hm Ho Hn k spare l e Hk G. apply (SpecReads.ra_revlower _ _ _ _ A) in G. inversion G as [E E1 E2|it l' e' E G' E1 E2]; [by left|subst l' e'; right].
    destruct (B9 Hm Ho Hn k spare it Hk E) as (l' & Y & K). apply (yields_gives (prev h') (prevF h') (walk_fuel h')) in Y; [|done].
    destruct (gives_det _ _ _ _ (mono_prevF _) Y _ _ G') as [-> ->]. done.
  - intros Hm. destruct t' as [a s x]. destruct (BD Hm s x) as (l & E & K). exists l. by rewrite (SpecReads.ra_dfs _ _ _ _ A).
Qed.
End Lemmas.

(** *** C56 Goroutines whose jobs are covered: every tree handed out answers as its reference map, which the job that made the tree has computed from the map of
    the tree it started from; the other goroutines leave no trace in it. *)
Lemma C56_maps_proof {V} `{GoZero V} (c : cfg V) js gs ns : recorded c js gs -> jobs_ok js ns ->
  exists ts, jobs_run js ts /\ length ts = length (c_pub c) /\
    forall i tr m d, c_pub c !! i = Some tr -> ts !! i = Some (m, d) -> answers_as (c_h c) tr m /\ exists x, x <= d /\ treeLen tr = N.of_nat (size m + x).
Proof.
  intros R Ho. destruct (C55_serial_proof c js gs R) as [Hl Ha]. destruct (jobs_covered js ns Ho) as (g & K1 & K2 & K3). destruct (serial_world js) as (rs & Ee & Es & Hd & _).
  destruct Ho as (_ & Hs & _). destruct (C48_proof _ g rs (scalls js).2 K1 Hd) as (Hlt & _ & Hrd & _); [lia|done|]. exists (g_trees g). split; [done|]. rewrite Es in Hl. cbn in Hl. split; [lia|].
  intros i tr m d Ei Eg. destruct (lookup_lt_is_Some_2 (serial js).2 i) as [T ET]. { rewrite Es. cbn. rewrite Hl. by eapply lookup_lt_Some. }
  specialize (Ha i tr T Ei ET). rewrite Es in ET. cbn in ET. destruct (Hrd i T m d ET Eg) as [Hra Hx]. split.
  - eapply answers; [exact Ha|]. by rewrite Es.
  - by rewrite (ra_len _ _ _ _ Ha).
Qed.
(** A goroutine whose job is covered does not panic. *)
Lemma C56_ends_proof {V} `{GoZero V} (c : cfg V) js gs ns i g o t : recorded c js gs -> gs !! i = Some g -> jobs_ok (js ++ [g]) ns -> c_th c !! i = Some (Some (PRet o, t)) ->
  exists r, o = Ok r.
Proof.
  intros R Eg Ho Ei. destruct o as [r| |]; [eauto| |].
  - exfalso. destruct (C55_panic_proof c js gs i t g R Ei Eg) as (T & ET & Hp). destruct (inv_recorded _ _ _ R) as (TD & TW & PD & I). destruct (iv_th _ _ _ _ _ _ I i _ _ g Ei Eg) as [Hg _].
    by eapply (jobs_no_panic js g ns T).
  - exfalso. assert (Hr : reachable c) by (apply C55_recorded_proof; eauto). destruct (C55_ends_proof c i _ t Hr Ei) as [He _]. by apply (He NoFuel).
Qed.

(** ** A concrete execution *)
Section Check.
Notation kmap := (gmap (list nat) nat).
(** executable check of [client_ok], for clients that overwrite no shadowed key *)
Fixpoint clientb (c : client nat) (m : kmap) (d : nat) (f : bool) : option (option (kmap * nat) * nat) :=
  match c with
  | GInsert k v next => if valid_keyb k && negb (shadowedb m k) && (f || negb (bool_decide (m = ∅)))
      then match clientb (next (ref_get m k)) (<[k := v]> m) d false with Some (o, n) => Some (o, S n) | None => None end else None
  | GDelete k next => match tame_opb m d (ODelete k) with
      | Some _ => match clientb (next (ref_get m k)) (delete k m) d false with Some (o, n) => Some (o, S n) | None => None end | None => None end
  | GDeletePrefix _ _ => None
  | GGet k next => if forallb (fun b => Nat.ltb b 256) k then clientb (next (ref_get m k)) m d f else None
  | GTrack _ next => match clientb next m d f with Some (o, n) => Some (o, S n) | None => None end
  | GCommit => Some (Some (m, d), 1)
  | GStop => Some (None, 0)
  end.
Lemma clientb_ok c : forall m d f o n, clientb c m d f = Some (o, n) -> (forall n', n <= n' -> client_ok n' c m d f) /\ forall o', client_run c m d o' -> o' = o.
Proof.
  induction c as [k v next IH|k next IH|k next IH|k next IH|b next IH| |]; intros m d f o n E; cbn [clientb client_ok] in *.
  - destruct (valid_keyb k) eqn:Ev; [|done]. destruct (shadowedb m k) eqn:Es; [done|]. destruct (f || negb (bool_decide (m = ∅))) eqn:Ef; [|done]. cbn in E.
    destruct (clientb (next _) _ _ _) as [[o1 n1]|] eqn:E1; [|done]. injection E as <- <-. destruct (IH _ _ _ _ _ _ E1) as [A B].
    assert (Hns : ~ shadowed m k) by (rewrite <- shadowedb_ok; congruence). split.
    + intros n' Hn'. split; [lia|]. split. { intros ->. rewrite bool_decide_true in Ef by done. by destruct f. }
      exists d. split. { split; [by apply valid_keyb_ok|]. by left. }
      intros x b [[= -> ->]|[? _]]; [|done]. rewrite <- surjective_pairing. apply A. lia.
    + intros o' Hr. inversion Hr as [? ? ? ? ? d' x b ? Ht Hres Hrun| | | | |]; subst. destruct Hres as [[= -> ->]|[? _]]; [|done]. rewrite <- surjective_pairing in Hrun.
      destruct Ht as [_ [[_ ->]|[? _]]]; [|done]. by apply B.
  - destruct (tame_opb m d (ODelete k)) as [d1|] eqn:Et; [|done]. destruct (clientb (next _) _ _ _) as [[o1 n1]|] eqn:E1; [|done]. injection E as <- <-. destruct (IH _ _ _ _ _ _ E1) as [A B].
    apply tame_opb_ok in Et. assert (d1 = d) as -> by (destruct Et as (_ & _ & -> & _); done). split.
    + intros n' Hn'. split; [lia|]. exists d. split; [done|]. intros x b [= -> ->]. rewrite <- surjective_pairing. apply A. lia.
    + intros o' Hr. inversion Hr as [|? ? ? ? d' x b ? Ht Hres Hrun| | | |]; subst. rewrite Hres in Hrun. destruct Ht as (_ & _ & -> & _). by apply B.
  - done.
  - destruct (forallb _ k) eqn:Ek; [|done]. destruct (IH _ _ _ _ _ _ E) as [A B]. split.
    + intros n' Hn'. split; [|by apply A]. apply Forall_forall. intros b Hb. rewrite forallb_forall in Ek. by apply Nat.ltb_lt, Ek, elem_of_list_In.
    + intros o' Hr. inversion Hr; subst. by apply B.
  - destruct (clientb next m d f) as [[o1 n1]|] eqn:E1; [|done]. injection E as <- <-. destruct (IH _ _ _ _ _ E1) as [A B]. split.
    + intros n' Hn'. split; [lia|]. apply A. lia.
    + intros o' Hr. inversion Hr; subst. by apply B.
  - injection E as <- <-. split; [lia|]. intros o' Hr. by inversion Hr.
  - injection E as <- <-. split; [done|]. intros o' Hr. by inversion Hr.
Qed.
Definition jobb (g : job nat) (ts : list (kmap * nat)) : option (list (kmap * nat) * nat) :=
  match g with
  | JNew => Some (ts ++ [(∅, 0)], 1)
  | JClone i => match ts !! i with Some t => Some (ts ++ [t], 1) | None => None end
  | JTxn i c => match ts !! i with Some (m, d) => match clientb c m d true with Some (o, n) => Some (ts ++ olist o, S n) | None => None end | None => None end
  end.
Fixpoint jobsb (js : list (job nat)) (ts : list (kmap * nat)) : option (list (kmap * nat) * list nat) :=
  match js with
  | [] => Some (ts, [])
  | g :: js => match jobb g ts with Some (ts1, n) => match jobsb js ts1 with Some (ts2, ns) => Some (ts2, n :: ns) | None => None end | None => None end
  end.
Lemma jobb_ok g ts ts1 n : jobb g ts = Some (ts1, n) -> job_ok ts n g /\ forall ts', job_run g ts ts' -> ts' = ts1.
Proof.
  destruct g as [|i c|i]; cbn [jobb].
  - intros [= <- <-]. split; [split; [lia|done]|]. intros ts' Hr. by inversion Hr.
  - destruct (ts !! i) as [[m d]|] eqn:Ei; [|done]. destruct (clientb c m d true) as [[o k]|] eqn:E; [|done]. intros [= <- <-]. destruct (clientb_ok _ _ _ _ _ _ E) as [A B]. split.
    + split; [lia|]. intros m' d' E'. assert (m' = m /\ d' = d) as [-> ->] by by rewrite Ei in E'; injection E' as -> ->. apply A. lia.
    + intros ts' Hr. inversion Hr as [| |? ? m' d' o' ? E' Hc|? ? ? E']; subst; [|cbn in E'; congruence]. rewrite Ei in E'. injection E' as <- <-. by rewrite (B o' Hc).
  - destruct (ts !! i) as [t|] eqn:Ei; [|done]. intros [= <- <-]. split; [split; [lia|done]|]. intros ts' Hr. inversion Hr as [|? ? ? E'| |? ? ? E']; subst; [|cbn in E'; congruence]. by rewrite Ei in E'; injection E' as <-.
Qed.
Lemma jobsb_ok js2 : forall js1 ts1 ts2 ns2, jobsb js2 ts1 = Some (ts2, ns2) -> (forall ts, jobs_run js1 ts -> ts = ts1) ->
  length ns2 = length js2 /\ (forall i g n ts, js2 !! i = Some g -> ns2 !! i = Some n -> jobs_run (js1 ++ take i js2) ts -> job_ok ts n g) /\ forall ts, jobs_run (js1 ++ js2) ts -> ts = ts2.
Proof.
  induction js2 as [|g js2 IH]; intros js1 ts1 ts2 ns2 E H1; cbn [jobsb] in E.
  - injection E as <- <-. split; [done|]. split; [done|]. by rewrite app_nil_r.
  - destruct (jobb g ts1) as [[tsa n]|] eqn:Eg; [|done]. destruct (jobsb js2 tsa) as [[tsb ns]|] eqn:Ej; [|done]. injection E as <- <-. destruct (jobb_ok _ _ _ _ Eg) as [A B].
    destruct (IH (js1 ++ [g]) tsa tsb ns Ej) as (K1 & K2 & K3).
    { intros ts Hr. inversion Hr as [E0|js' g' ta tb Hr1 Hr2 E0]; [by destruct js1|]. apply app_inj_tail in E0 as [-> ->]. subst. apply B. by rewrite <- (H1 _ Hr1). }
    split; [cbn; lia|]. split.
    + intros [|i] g0 n0 ts; cbn; [intros [= <-] [= <-]; rewrite app_nil_r; intros Hr; by rewrite (H1 _ Hr)|]. intros Ei En Hr. apply (K2 i g0 n0 ts); [done|done|]. by rewrite <- app_assoc.
    + intros ts Hr. apply K3. by rewrite <- app_assoc.
Qed.
Lemma jobsb_all js ts ns : jobsb js [] = Some (ts, ns) -> (N.of_nat (sum_list ns) < 2 ^ 64)%N -> jobs_ok js ns /\ forall ts', jobs_run js ts' -> ts' = ts.
Proof.
  intros E Hs. destruct (jobsb_ok js [] [] ts ns E) as (K1 & K2 & K3); [|done]. intros ts0 Hr. inversion Hr as [|js' g ta tb _ _ E0]; [done|]. by destruct js'.
Qed.
End Check.

(** Three goroutines on the tree with the keys a, b, their commands interleaved: one deletes a, one inserts c and, because it finds a, also ab; one clones. *)
Definition mc0 : client nat := GInsert [97] 1 (fun _ => GInsert [98] 2 (fun _ => GCommit)).
Definition mc1 : client nat := GDelete [97] (fun _ => GCommit).
Definition mc2 : client nat := GInsert [99] 3 (fun _ => GGet [97] (fun r => if r.2 then GInsert [97; 98] (r.1 + 10) (fun _ => GCommit) else GStop)).
Definition msched : list (rmove nat) :=
  [RNEW; RGO 0 mc0; RRUN 0 1000; REND 0; RGO 1 mc1; RGO 1 mc2; RCLONE 1] ++ concat (replicate 30 [RRUN 1 3; RRUN 2 4; RRUN 3 1]) ++ [REND 3; RRUN 2 1000; REND 2; RRUN 1 1000; REND 1].
Example ex_C56 : let '(c, js, gs) := rafter msched in
  recorded c js gs /\ (exists ns, jobs_ok js ns) /\
  forall ts, jobs_run js ts -> map_to_list <$> ts.*1 = [[]; [([97], 1); ([98], 2)]; [([97], 1); ([98], 2)]; [([97], 1); ([98], 2); ([97; 98], 11); ([99], 3)]; [([98], 2)]].
Proof.
  pose proof (rafter_recorded msched ltac:(vm_compute; reflexivity)) as R. destruct (rafter msched) as [[c js] gs] eqn:E. split; [exact R|].
  assert (Ej : js = [JNew; JTxn 0 mc0; JClone 1; JTxn 1 mc2; JTxn 1 mc1]). { change js with (c, js, gs).1.2. rewrite <- E. vm_compute. reflexivity. }
  clear R E. subst js. destruct (jobsb [JNew; JTxn 0 mc0; JClone 1; JTxn 1 mc2; JTxn 1 mc1] []) as [[ts ns]|] eqn:E; [|by vm_compute in E].
  destruct (jobsb_all _ _ _ E) as [A B]. { change ns with (ts, ns).2. vm_compute in E. injection E as <- <-. vm_compute. reflexivity. }
  split; [by exists ns|]. intros ts' Hr. rewrite (B _ Hr). vm_compute in E. injection E as <- <-. vm_compute. reflexivity.
Qed.
