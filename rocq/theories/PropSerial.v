(** Goroutines that share memory behave as if they had run one after the other (C55). *)
From Verif Require Import ReadAlike ReadTotal PropRank PropRace.
From Verif Require Import Serial.
From stdpp Require Import list.
Local Open Scope nat_scope.
Local Open Scope list_scope.

Section Lemmas.
Context {V : Type} `{GoZero V}.
Lemma recorded_len (c : cfg V) js gs : recorded c js gs -> length gs = length (c_th c).
Proof. intros R. induction R; cbn in *; rewrite ?app_length, ?insert_length; cbn; congruence. Qed.
Lemma recorded_step c js gs c' : recorded c js gs -> mstep c c' -> exists js' gs', recorded (V:=V) c' js' gs'.
Proof.
  intros R S. inversion S; subst; try (apply elem_of_list_lookup in H0 as [i Hi]).
  - eexists _, _. by eapply rec_new.
  - eexists _, _. by eapply rec_spawn.
  - eexists _, _. by eapply rec_clone.
  - eexists _, _. by eapply rec_cmd.
  - eexists _, _. by eapply rec_fault.
  - destruct (lookup_lt_is_Some_2 gs i) as [g Eg]. { rewrite (recorded_len _ _ _ R). cbn. by eapply lookup_lt_Some. } eexists _, _. by eapply rec_done.
  - eexists _, _. by eapply rec_stop.
  - eexists _, _. by eapply rec_watch.
Qed.
End Lemmas.

(** *** C55 Every execution has a record, which says which jobs have ended and in which order; and a record is one of an execution. *)
Lemma C55_recorded_proof {V} `{GoZero V} (c : cfg V) : reachable c <-> exists js gs, recorded c js gs.
Proof.
  split.
  - intros R. unfold reachable in R. remember cfg0 as c0 eqn:E0. revert E0. induction R as [c|c1 c2 c3 R IH S]; intros ->; [exists [], []; constructor|].
    destruct (IH eq_refl) as (js & gs & Hr). by eapply recorded_step.
  - intros (js & gs & R). induction R; [constructor|econstructor; [exact IHR|]..].
    + by apply m_new.
    + apply m_spawn. by eapply elem_of_list_lookup_2.
    + apply m_clone. by eapply elem_of_list_lookup_2.
    + by eapply m_cmd.
    + by eapply m_fault.
    + by eapply m_done.
    + by eapply m_stop.
    + by apply m_watch.
Qed.
(** Serializability.  Run the jobs that have ended one after the other, in the order in which they have ended, in a memory of their own.  This hands
    out as many trees, and no read whatsoever distinguishes the i-th tree from the i-th tree of the concurrent execution. *)
Lemma C55_serial_proof {V} `{GoZero V} (c : cfg V) js gs : recorded c js gs ->
  length (serial js).2 = length (c_pub c) /\
  forall i tr T, c_pub c !! i = Some tr -> (serial js).2 !! i = Some T -> reads_alike (c_h c) tr (serial js).1 T.
Proof.
  intros R. destruct (inv_recorded _ _ _ R) as (TD & TW & PD & I). split; [by apply (iv_len _ _ _ _ _ _ I)|].
  intros i tr T Ei ET. destruct (iv_pub _ _ _ _ _ _ I i tr T Ei ET) as (b & Hb & (A1 & A2 & A3) & _). eapply alike; [exact Hb|apply serial_ranked|done|done].
Qed.
(** No goroutine accesses a cell that does not exist. *)
Lemma C55_access_proof {V} `{GoZero V} (c : cfg V) i B (cm : cmd V B) k t : reachable c -> c_th c !! i = Some (Some (Do cm k, t)) ->
  exists b s, sem cm (mkS (c_h c) t) = (Ok b, s).
Proof.
  intros R Ei. apply C55_recorded_proof in R as (js & gs & R). destruct (inv_recorded _ _ _ R) as (TD & TW & PD & I).
  destruct (lookup_lt_is_Some_2 gs i) as [g Eg]. { rewrite (recorded_len _ _ _ R). by eapply lookup_lt_Some. }
  destruct (inv_use _ _ _ _ _ _ _ _ _ _ I Ei Eg) as (T & b & q & [h' t'] & ET & Er & Hn & SR & Hp). pose proof (prel_follow _ _ _ _ _ _ _ _ _ Hp SR) as [F|[F _]]; [done|exact F].
Qed.
(** A goroutine panics only if it panics when it is run alone, after the jobs that have ended by then. *)
Lemma C55_panic_proof {V} `{GoZero V} (c : cfg V) js gs i t g : recorded c js gs -> c_th c !! i = Some (Some (PRet Panic, t)) -> gs !! i = Some g ->
  exists T, (serial js).2 !! jbase g = Some T /\ (run (jprog g T) (mkS (serial js).1 (noTxn T))).1 = Panic.
Proof.
  intros R Ei Eg. destruct (inv_recorded _ _ _ R) as (TD & TW & PD & I). destruct (inv_use _ _ _ _ _ _ _ _ _ _ I Ei Eg) as (T & b & q & [h' t'] & ET & Er & Hn & SR & Hp).
  exists T. split; [done|]. rewrite Er. pose proof (prel_follow _ _ _ _ _ _ _ _ _ Hp SR) as [F|F]; [done|exact F].
Qed.
(** Every goroutine ends, with a result or a panic: none is stuck in a search, and each one can be run to its end, at any time, no matter where the
    others are. *)
Lemma C55_ends_proof {V} `{GoZero V} (c : cfg V) i p t : reachable c -> c_th c !! i = Some (Some (p, t)) ->
  (forall o, p = PRet o -> o <> NoFuel) /\ exists c' o t', msteps c c' /\ c_th c' !! i = Some (Some (PRet o, t')) /\ o <> NoFuel /\
    forall j, j <> i -> c_th c' !! j = c_th c !! j.
Proof.
  assert (K : forall c, reachable c -> c_th c !! i = Some (Some (p, t)) -> forall o, p = PRet o -> o <> NoFuel).
  { clear. intros c R Ei o -> ->. apply C55_recorded_proof in R as (js & gs & R). destruct (inv_recorded _ _ _ R) as (TD & TW & PD & I). by eapply inv_ends. }
  intros R Ei. split; [by eapply K|]. clear K. revert c t R Ei. induction p as [o|B cm k IH]; intros c t R Ei.
  - exists c, o, t. split; [constructor|]. split; [done|]. split; [|done]. intros ->. apply C55_recorded_proof in R as (js & gs & R). destruct (inv_recorded _ _ _ R) as (TD & TW & PD & I). by eapply inv_ends.
  - destruct (C55_access_proof c i B cm k t R Ei) as (b & s & Es). destruct c as [h ths pub]. cbn in Ei, Es.
    pose proof (m_cmd h ths pub i t B cm k b s Ei Es) as M. destruct (IH b _ (s_t s) (ms_step _ _ _ R M)) as (c' & o & t' & R' & E' & Ho & Hj).
    { cbn. rewrite list_lookup_insert; [done|by eapply lookup_lt_Some]. }
    exists c', o, t'. split; [|split; [done|split; [done|]]].
    + clear -R' M. induction R' as [|c1 c2 c3 R' IH S]; [eapply ms_step; [constructor|done]|]. eapply ms_step; [by apply IH|done].
    + intros j Hne. rewrite (Hj j Hne). cbn. by rewrite list_lookup_insert_ne.
Qed.
(** Every read of a tree that was handed out ends, at every moment, and every iteration over it gives one sequence of results. *)
Lemma C55_reads_proof {V} `{GoZero V} (c : cfg V) i tr : reachable c -> c_pub c !! i = Some tr -> reads_total (c_h c) tr.
Proof.
  intros R Ei. apply C55_recorded_proof in R as (js & gs & R). destruct (C55_serial_proof c js gs R) as [Hl Ha].
  destruct (lookup_lt_is_Some_2 (serial js).2 i) as [T ET]; [rewrite Hl; by eapply lookup_lt_Some|]. eapply total_left; [apply (serial_ranked js)|by apply (Ha i)].
Qed.

(** ** A concrete execution *)
Section Play.
Context {V : Type} `{GoZero V}.
Inductive rmove := RNEW | RGO (i : nat) (c : client V) | RCLONE (i : nat) | RRUN (i n : nat) | REND (i : nat).
Definition rstate : Type := cfg V * list (job V) * list (job V).
Definition rplay1 (m : rmove) (x : rstate) : option rstate :=
  let '(c, js, gs) := x in
  match m with
  | RNEW => match newTree (c_h c) with (Ok tr, h) => Some (mkC h (c_th c) (c_pub c ++ [tr]), js ++ [JNew], gs) | _ => None end
  | RGO i cl => match c_pub c !! i with Some tr => Some (mkC (c_h c) (c_th c ++ [Some (goroutine tr cl, noTxn tr)]) (c_pub c), js, gs ++ [JTxn i cl]) | None => None end
  | RCLONE i => match c_pub c !! i with Some tr => Some (mkC (c_h c) (c_th c ++ [Some (cloner tr, noTxn tr)]) (c_pub c), js, gs ++ [JClone i]) | None => None end
  | RRUN i n => match c_th c !! i with
      | Some (Some (p, t)) => let '(q, s) := steps_of n p (mkS (c_h c) t) in Some (mkC (s_h s) (<[i := Some (q, s_t s)]> (c_th c)) (c_pub c), js, gs)
      | _ => None end
  | REND i => match c_th c !! i, gs !! i with
      | Some (Some (PRet (Ok r), t)), Some g => Some (mkC (c_h c) (<[i := None]> (c_th c)) (c_pub c ++ match r with Some tr => [tr] | None => [] end), js ++ [g], gs)
      | _, _ => None end
  end.
Fixpoint rplay (ms : list rmove) (x : rstate) : option rstate := match ms with [] => Some x | m :: ms => match rplay1 m x with Some y => rplay ms y | None => None end end.
Definition rafter (ms : list rmove) : rstate := default (cfg0, [], []) (rplay ms (cfg0, [], [])).
Lemma steps_recorded n : forall h ths pub i p t q s js gs, recorded (mkC h ths pub) js gs -> ths !! i = Some (Some (p, t)) -> steps_of n p (mkS h t) = (q, s) ->
  recorded (mkC (s_h s) (<[i := Some (q, s_t s)]> ths) pub) js gs.
Proof.
  induction n as [|n IH]; intros h ths pub i p t q s js gs R Ei E.
  - injection E as <- <-. cbn. by rewrite list_insert_id.
  - destruct p as [o|B c k]; cbn in E.
    + injection E as <- <-. cbn. by rewrite list_insert_id.
    + destruct (sem c (mkS h t)) as [[b| |] s1] eqn:Es; [|injection E as <- <-; cbn; by rewrite list_insert_id..].
      destruct s1 as [h1 t1]. assert (L : i < length ths) by (by eapply lookup_lt_Some).
      pose proof (rec_cmd h ths pub i t B c k b _ js gs R Ei Es) as M. cbn [s_h s_t] in M.
      pose proof (IH h1 (<[i:=Some (k b, t1)]> ths) pub i (k b) t1 q s js gs M (list_lookup_insert _ _ _ L) E) as M2. by rewrite list_insert_insert in M2.
Qed.
Lemma rplay1_recorded m c js gs c' js' gs' : recorded c js gs -> rplay1 m (c, js, gs) = Some (c', js', gs') -> recorded c' js' gs'.
Proof.
  intros R. destruct c as [h ths pub]. destruct m as [|i cl|i|i n|i]; cbn.
  - intros [= <- <- <-]. by eapply rec_new.
  - destruct (pub !! i) as [tr|] eqn:Ei; [|done]. intros [= <- <- <-]. by apply rec_spawn.
  - destruct (pub !! i) as [tr|] eqn:Ei; [|done]. intros [= <- <- <-]. by apply rec_clone.
  - destruct (ths !! i) as [[[p t]|]|] eqn:Ei; [|done..]. destruct (steps_of n p (mkS h t)) as [q s] eqn:Es. intros [= <- <- <-]. by eapply steps_recorded.
  - destruct (ths !! i) as [[[[[r| |]|] t]|]|] eqn:Ei; try done. destruct (gs !! i) as [g|] eqn:Eg; [|done]. intros [= <- <- <-]. by eapply rec_done.
Qed.
Lemma rplay_recorded ms : forall c js gs c' js' gs', recorded c js gs -> rplay ms (c, js, gs) = Some (c', js', gs') -> recorded c' js' gs'.
Proof.
  induction ms as [|m ms IH]; intros c js gs c' js' gs' R E; [by injection E as <- <- <-|]. cbn [rplay] in E. destruct (rplay1 m (c, js, gs)) as [[[c1 js1] gs1]|] eqn:E1; [|done].
  eapply IH; [|exact E]. by eapply rplay1_recorded.
Qed.
Lemma rafter_recorded ms : (if rplay ms (cfg0, [], []) then true else false) = true -> recorded (rafter ms).1.1 (rafter ms).1.2 (rafter ms).2.
Proof. unfold rafter. destruct (rplay ms _) as [[[c js] gs]|] eqn:E; [|done]. intros _. eapply rplay_recorded; [constructor|exact E]. Qed.
End Play.
Arguments rmove V : clear implicits.

(** Two goroutines start on the tree with the keys a, ab and alternate every few commands; the second one deletes what the first one updates, and
    ends first.  The cells are not at the same addresses as in the serial execution, but the trees read alike.  (The
    last tree has 3 keys: its Len counts the overwritten key twice, see C06.) *)
Definition rsched : list (rmove nat) :=
  [RNEW; RGO 0 (GInsert [97] 1 (fun _ => GInsert [97; 98] 2 (fun _ => GCommit))); RRUN 0 1000; REND 0; RGO 1 txn1; RGO 1 txn2; RCLONE 1] ++
  concat (replicate 40 [RRUN 1 3; RRUN 2 4; RRUN 3 1]) ++ [REND 3; RRUN 2 1000; REND 2; RRUN 1 1000; REND 1].
Definition gets (h : heap nat) (ts : list rtree) := map (fun t => (treeLen t, map (fun k => treeGet h t k) [[97]; [97; 98]; [98]; [99]])) ts.
Example ex_C55 : let '(c, js, gs) := rafter rsched in
  recorded c js gs /\ map jbase js = [0; 0; 1; 1; 1] /\ length (c_pub c) = 5 /\
  map r_root (c_pub c) <> map r_root (serial js).2 /\ gets (c_h c) (c_pub c) = gets (serial js).1 (serial js).2 /\
  gets (c_h c) (c_pub c) =
    [(0%N, [Ok (0, false); Ok (0, false); Ok (0, false); Ok (0, false)]);
     (2%N, [Ok (1, true); Ok (2, true); Ok (0, false); Ok (0, false)]);
     (2%N, [Ok (1, true); Ok (2, true); Ok (0, false); Ok (0, false)]);
     (2%N, [Ok (0, false); Ok (2, true); Ok (0, false); Ok (7, true)]);
     (4%N, [Ok (5, true); Ok (2, true); Ok (6, true); Ok (0, false)])].
Proof.
  pose proof (rafter_recorded rsched ltac:(vm_compute; reflexivity)) as R. destruct (rafter rsched) as [[c js] gs] eqn:E. split; [exact R|].
  assert (Ec : c = (rafter rsched).1.1) by by rewrite E. assert (Ej : js = (rafter rsched).1.2) by by rewrite E. clear R E. subst c js. split_and!; vm_compute; try done.
Qed.
