(** The theorems on SeekLowerBound: which keys below the bound it may yield, when it returns, when it is exact, and
    that it depends on the history; with examples (restated in Properties_Low.v). *)
From Verif Require Import ReadTop ReadLow ReadLow2 ReadEr PropWorld PropMap PropRead PropSeek Refute.
From stdpp Require Import list.
Local Open Scope nat_scope.

Lemma klt_term_up k k' : (forall c x, k = k' ++ c :: x -> dollar <= c) -> klt k' k -> klt (k' ++ [dollar]) (k ++ [dollar]).
Proof.
  revert k'. induction k as [|b k IH]; intros [|a k'] Hh Hk; cbn in *; try done.
  - specialize (Hh b k eq_refl). destruct (Nat.eq_dec dollar b) as [<-|]; [right; split; [done|by destruct k]|left; lia].
  - destruct Hk as [?|[-> Hk]]; [by left|right]. split; [done|]. apply IH; [|done]. intros c x ->. by apply (Hh c x).
Qed.
Lemma slim_tree {V} `{GoZero V} (os : list (op V)) d h t rs :
  tame os d -> (N.of_nat (length os) < 2 ^ 64)%N -> build os h t rs -> ref_ops os ∅ <> ∅ -> (forall w, ~ hollow os w) ->
  exists u, rep (er_h h) [] u /\ NoDup (fp u) /\ r_root t = aroot u /\ contents u (ref_ops os ∅) /\ forall w, ~ thin [] u w.
Proof.
  intros Ht Hl Hb Hne Hho. destruct (build_slim os d h t rs Ht Hl Hb) as [?|(u & H1 & H2 & H3 & H4 & H5)]; [done|].
  exists u. split_and!; [done..|]. intros w Hw. by apply (Hho w), H5.
Qed.

(** *** C58, the pairs below the bound: on tame histories without deletes of keys that have stored extensions, whose
    stored keys are prefix-free and go on in at most 12 ways after every prefix, for a bound k where neither a stored key
    goes on with a byte below '$' after k nor k after a stored key: if
    SeekLowerBound(k) returns, Next yields stored pairs in ascending order, all those whose key is not below k, and of
    those below k only hidden ones. *)
Lemma C58_extra_proof {V} `{GoZero V} (os : list (op V)) d h t rs k it :
  tame os d -> (N.of_nat (length os) < 2 ^ 64)%N -> build os h t rs -> (forall w, ~ hollow os w) ->
  ref_ops os ∅ <> ∅ -> prefix_free (ref_ops os ∅) -> narrow (ref_ops os ∅) -> neat (ref_ops os ∅) k ->
  seekLowerBound h (newLowerIter (r_root t)) k = Ok it ->
  exists l, yields (lowerNext h) it l /\ ascending l /\ (forall k' v, (k', v) ∈ l -> ref_ops os ∅ !! k' = Some v) /\
    (forall k' v, ref_ops os ∅ !! k' = Some v -> ~ klt k' k -> (k', v) ∈ l) /\
    (forall k' v, (k', v) ∈ l -> klt k' k -> hidden (ref_ops os ∅) k k').
Proof.
  intros Ht Hl Hb Hho Hne Hpf Hn Hk E. destruct (slim_tree os d h t rs Ht Hl Hb Hne Hho) as (u & Hr & Hnd & Eu & Hc & Hth).
  rewrite <- er_seekLowerBound, Eu in E. destruct (rep_lower _ _ _ _ _ Hr Hnd Hc Hk Hpf Hn E) as (l & Hy & H1 & H2 & H3 & H4). exists l. split.
  { eapply yields_ext; [|exact Hy]. intros; by rewrite er_lowerNext. }
  split; [done|]. split; [done|]. split; [done|]. intros k' v Hin Hlt. destruct (H4 k' v Hin) as [Hx|Hx]; [destruct Hx; apply klt_term_up; [intros c x ->; eapply Hk; eauto|done]|].
  by eapply overshoot_hidden.
Qed.
(** *** C58, when it returns: on such histories SeekLowerBound(k) does not panic, for any k, if two stored keys differ in
    their first byte and the stored keys have no common run of more than 10 bytes. *)
Lemma C58_returns_proof {V} `{GoZero V} (os : list (op V)) d h t rs k :
  tame os d -> (N.of_nat (length os) < 2 ^ 64)%N -> build os h t rs -> (forall w, ~ hollow os w) ->
  prefix_free (ref_ops os ∅) -> narrow (ref_ops os ∅) -> forked (ref_ops os ∅) -> short_runs (ref_ops os ∅) ->
  exists it, seekLowerBound h (newLowerIter (r_root t)) k = Ok it.
Proof.
  intros Ht Hl Hb Hho Hpf Hn Hf Hs. assert (Hne : ref_ops os (∅ : gmap (list nat) V) <> ∅).
  { destruct Hf as (c & c' & x & x' & _ & [v Hv] & _). intros E. by rewrite E in Hv. }
  destruct (slim_tree os d h t rs Ht Hl Hb Hne Hho) as (u & Hr & Hnd & Eu & Hc & Hth). rewrite <- er_seekLowerBound, Eu. by eapply rep_lower_total.
Qed.
(** *** C58: on such histories, if no stored key below k is hidden, SeekLowerBound(k) returns and Next yields exactly the
    stored pairs whose key is not below k, in ascending order. *)
Lemma C58_exact_proof {V} `{GoZero V} (os : list (op V)) d h t rs k :
  tame os d -> (N.of_nat (length os) < 2 ^ 64)%N -> build os h t rs -> (forall w, ~ hollow os w) ->
  prefix_free (ref_ops os ∅) -> narrow (ref_ops os ∅) -> forked (ref_ops os ∅) -> short_runs (ref_ops os ∅) ->
  neat (ref_ops os ∅) k -> (forall k', is_Some (ref_ops os ∅ !! k') -> klt k' k -> ~ hidden (ref_ops os ∅) k k') ->
  exists it l, seekLowerBound h (newLowerIter (r_root t)) k = Ok it /\ yields (lowerNext h) it l /\ ascending l /\
    forall k' v, (k', v) ∈ l <-> (ref_ops os ∅ !! k' = Some v /\ ~ klt k' k).
Proof.
  intros Ht Hl Hb Hho Hpf Hn Hf Hs Hk Hnh. assert (Hne : ref_ops os (∅ : gmap (list nat) V) <> ∅).
  { destruct Hf as (c & c' & x & x' & _ & [v Hv] & _). intros E. by rewrite E in Hv. }
  destruct (C58_returns_proof os d h t rs k Ht Hl Hb Hho Hpf Hn Hf Hs) as [it E].
  destruct (C58_extra_proof os d h t rs k it Ht Hl Hb Hho Hne Hpf Hn Hk E) as (l & Hy & Ha & H1 & H2 & H3).
  exists it, l. split; [done|]. split; [done|]. split; [done|]. intros k' v. split; [|intros [? ?]; by apply H2].
  intros Hin. pose proof (H1 _ _ Hin) as Hm. split; [done|]. intros Hlt. by apply (Hnh k' ltac:(eauto) Hlt), (H3 k' v).
Qed.
(** *** C58: the same where the stored keys branch at every byte along k. *)
Lemma C58_branching_proof {V} `{GoZero V} (os : list (op V)) d h t rs k :
  tame os d -> (N.of_nat (length os) < 2 ^ 64)%N -> build os h t rs -> (forall w, ~ hollow os w) ->
  prefix_free (ref_ops os ∅) -> narrow (ref_ops os ∅) -> forked (ref_ops os ∅) -> short_runs (ref_ops os ∅) ->
  neat (ref_ops os ∅) k -> (forall q b i, (q ++ [b]) `prefix_of` k -> is_Some (ref_ops os ∅ !! i) -> (q ++ [b]) `prefix_of` i ->
    exists j, is_Some (ref_ops os ∅ !! j) /\ q `prefix_of` j /\ ~ (q ++ [b]) `prefix_of` j) ->
  exists it l, seekLowerBound h (newLowerIter (r_root t)) k = Ok it /\ yields (lowerNext h) it l /\ ascending l /\
    forall k' v, (k', v) ∈ l <-> (ref_ops os ∅ !! k' = Some v /\ ~ klt k' k).
Proof.
  intros Ht Hl Hb Hho Hpf Hn Hf Hs Hk Hbr. apply (C58_exact_proof os d h t rs k); try done.
  intros k' _ _ (q & r & x & j & k'' & Hr & Hqr & Hall & Hj & Hqj & _). destruct r as [|b r]; [done|].
  destruct (Hbr q b j) as (i & Hi & Hqi & Hni); [etrans; [|exact Hqr]; exists r; by rewrite <- app_assoc|done|etrans; [|exact Hqj]; exists r; by rewrite <- app_assoc|].
  apply Hni. etrans; [|by apply Hall]. exists r. by rewrite <- app_assoc.
Qed.

Lemma ascending_NoDup {V} (l : list (bytes * V)) : ascending l -> NoDup l.
Proof.
  unfold ascending. induction 1 as [|x l Hs IH Hx]; constructor; [|done]. intros Hin. rewrite Forall_forall in Hx. by apply (klt_irrefl' x.1), Hx.
Qed.
(** *** C59, where the contents do determine the result: two such histories with the same contents, and a bound with no
    stored key hidden below it, yield the same sequence. *)
Lemma C59_partial_proof {V} `{GoZero V} (os os' : list (op V)) d d' h t rs h' t' rs' k :
  tame os d -> tame os' d' -> (N.of_nat (length os) < 2 ^ 64)%N -> (N.of_nat (length os') < 2 ^ 64)%N ->
  build os h t rs -> build os' h' t' rs' -> (forall w, ~ hollow os w) -> (forall w, ~ hollow os' w) -> ref_ops os ∅ = ref_ops os' ∅ ->
  prefix_free (ref_ops os ∅) -> narrow (ref_ops os ∅) -> forked (ref_ops os ∅) -> short_runs (ref_ops os ∅) ->
  neat (ref_ops os ∅) k -> (forall k', is_Some (ref_ops os ∅ !! k') -> klt k' k -> ~ hidden (ref_ops os ∅) k k') ->
  exists it it' l, seekLowerBound h (newLowerIter (r_root t)) k = Ok it /\ seekLowerBound h' (newLowerIter (r_root t')) k = Ok it' /\
    yields (lowerNext h) it l /\ yields (lowerNext h') it' l.
Proof.
  intros Ht Ht' Hl Hl' Hb Hb' Hho Hho' E Hpf Hn Hf Hs Hk Hnh.
  destruct (C58_exact_proof os d h t rs k Ht Hl Hb Hho Hpf Hn Hf Hs Hk Hnh) as (it & l & E1 & Y1 & A1 & M1). rewrite E in *.
  destruct (C58_exact_proof os' d' h' t' rs' k Ht' Hl' Hb' Hho' Hpf Hn Hf Hs Hk Hnh) as (it' & l' & E2 & Y2 & A2 & M2).
  assert (l' = l) as ->. { apply ascending_unique; [|done|done]. apply NoDup_Permutation; [by apply ascending_NoDup..|]. intros [x v]. by rewrite M1, M2. }
  exists it, it', l. done.
Qed.

(** *** Executable checks of the hypotheses *)
Definition hollowb (os : list (op nat)) : bool :=
  existsb (fun i => match os !! i with
    | Some (ODelete w) => bool_decide (map_Exists (fun k' _ => k' <> w /\ w `prefix_of` k') (ref_ops (take i os) ∅))
    | _ => false end) (seq 0 (length os)).
Lemma hollowb_ok os : hollowb os = false -> forall w, ~ hollow os w.
Proof.
  intros E w (i & Hi & _ & k' & [v Hk'] & Hne & Hp). unfold hollowb in E. apply not_true_iff_false in E. apply E. apply existsb_exists.
  exists i. split; [apply in_seq; apply lookup_lt_Some in Hi; lia|]. rewrite Hi. apply bool_decide_eq_true. exists k', v. done.
Qed.
(** keys shorter than 12 bytes have short runs *)
Lemma short_runs_check {V} (m : gmap (list nat) V) : map_Forall (fun k _ => length k < 11) m -> short_runs m.
Proof.
  intros Hm q w k k' Hw _ [v Hk] _ Hp _. exfalso. apply prefix_length in Hp. rewrite app_length in Hp. specialize (Hm k v Hk). cbn in Hm. lia.
Qed.
Definition branchb {V} (m : gmap (list nat) V) (k : bytes) : bool :=
  forallb (fun n => negb (bool_decide (map_Exists (fun i _ => take (S n) k `prefix_of` i) m)) ||
    bool_decide (map_Exists (fun j _ => take n k `prefix_of` j /\ ~ take (S n) k `prefix_of` j) m)) (seq 0 (length k)).
Lemma branchb_ok {V} (m : gmap (list nat) V) k : branchb m k = true -> forall q b i, (q ++ [b]) `prefix_of` k -> is_Some (m !! i) -> (q ++ [b]) `prefix_of` i ->
  exists j, is_Some (m !! j) /\ q `prefix_of` j /\ ~ (q ++ [b]) `prefix_of` j.
Proof.
  intros E q b i [x ->] [v Hi] Hp. unfold branchb in E. rewrite forallb_forall in E. specialize (E (length q)).
  assert (E1 : take (length q) ((q ++ [b]) ++ x) = q) by (rewrite <- app_assoc; apply take_app).
  assert (E2 : take (S (length q)) ((q ++ [b]) ++ x) = q ++ [b]) by (replace (S (length q)) with (length (q ++ [b])) by (rewrite app_length; cbn; lia); apply take_app).
  rewrite E1, E2 in E. rewrite orb_true_iff, negb_true_iff, bool_decide_eq_false, bool_decide_eq_true in E.
  destruct E as [E|(j & vj & Hj & Hqj & Hnj)]; [apply in_seq; rewrite !app_length; cbn; lia|destruct E; by exists i, v|]. exists j. eauto.
Qed.

Local Open Scope string_scope.
(** A history with deletes, of keys without extensions. *)
Definition ex_low : list (op nat) :=
  [I "cone" 1; I "cat" 2; I "cow" 3; I "dog" 4; D "cat"; I "cub" 5; I "dim" 6; I "ant" 7; I "ape" 8; D "ant"; I "asp" 9; I "cod" 10; I "coat" 11].
Example ex_C58 : tame ex_low 0 /\ (forall w, ~ hollow ex_low w) /\ highmap (ref_ops ex_low ∅) /\ prefix_free (ref_ops ex_low ∅) /\ narrow (ref_ops ex_low ∅) /\
  forked (ref_ops ex_low ∅) /\ short_runs (ref_ops ex_low ∅) /\ highbytes (B "cobra") /\
  (forall q b i, (q ++ [b])%list `prefix_of` B "cobra" -> is_Some (ref_ops ex_low ∅ !! i) -> (q ++ [b])%list `prefix_of` i ->
    exists j, is_Some (ref_ops ex_low ∅ !! j) /\ q `prefix_of` j /\ ~ (q ++ [b])%list `prefix_of` j) /\
  exists h t rs it, build ex_low h t rs /\ seekLowerBound h (newLowerIter (r_root t)) (B "cobra") = Ok it /\
   yields (lowerNext h) it [(B "cod", 10); (B "cone", 1); (B "cow", 3); (B "cub", 5); (B "dim", 6); (B "dog", 4)].
Proof.
  split; [apply tameb_start; by vm_compute|]. split; [apply hollowb_ok; by vm_compute|].
  split; [apply highmap_check; apply (bool_decide_unpack _); by vm_compute|].
  split; [apply prefix_free_check; apply (bool_decide_unpack _); by vm_compute|].
  split; [apply narrow_small; vm_compute; lia|].
  split; [exists 100, 99, (B "og"), (B "od"); split; [done|]; split; vm_compute; eexists; reflexivity|].
  split; [apply short_runs_check; apply (bool_decide_unpack _); by vm_compute|].
  split; [repeat constructor; vm_compute; lia|].
  split; [apply branchb_ok; by vm_compute|].
  do 4 eexists. split; [apply build_intro; vm_compute; reflexivity|]. split; [vm_compute; reflexivity|].
  apply (drain_yields 8); vm_compute; reflexivity.
Qed.
(** Two histories with the same contents and different trees on the way (the second has no deletes). *)
Definition ex_low' : list (op nat) := [I "asp" 9; I "ape" 8; I "dim" 6; I "dog" 4; I "coat" 11; I "cod" 10; I "cone" 1; I "cow" 3; I "cub" 5].
Example ex_C59 : tame ex_low 0 /\ tame ex_low' 0 /\ (forall w, ~ hollow ex_low w) /\ (forall w, ~ hollow ex_low' w) /\ ref_ops ex_low ∅ = ref_ops ex_low' ∅ /\
  neat (ref_ops ex_low ∅) (B "cobra") /\ (forall k', is_Some (ref_ops ex_low ∅ !! k') -> klt k' (B "cobra") -> ~ hidden (ref_ops ex_low ∅) (B "cobra") k') /\
  exists h t rs it h' t' rs' it', build ex_low h t rs /\ build ex_low' h' t' rs' /\ h <> h' /\
   seekLowerBound h (newLowerIter (r_root t)) (B "cobra") = Ok it /\ seekLowerBound h' (newLowerIter (r_root t')) (B "cobra") = Ok it' /\
   yields (lowerNext h) it [(B "cod", 10); (B "cone", 1); (B "cow", 3); (B "cub", 5); (B "dim", 6); (B "dog", 4)] /\
   yields (lowerNext h') it' [(B "cod", 10); (B "cone", 1); (B "cow", 3); (B "cub", 5); (B "dim", 6); (B "dog", 4)].
Proof.
  destruct ex_C58 as (T & Ho & Hm & _ & _ & _ & _ & Hb & Hbr & _).
  split; [done|]. split; [apply tameb_start; by vm_compute|]. split; [done|]. split; [apply hollowb_ok; by vm_compute|].
  split; [apply (bool_decide_unpack _); by vm_compute|]. split; [by apply highmap_neat|]. split.
  { clear - Hbr. intros k' _ _ (q & r & x & j & k'' & Hr & Hqr & Hall & Hj & Hqj & _). destruct r as [|b r]; [done|].
    destruct (Hbr q b j) as (i & Hi & Hqi & Hni); [etrans; [|exact Hqr]; exists r; by rewrite <- app_assoc|done|etrans; [|exact Hqj]; exists r; by rewrite <- app_assoc|].
    apply Hni. etrans; [|by apply Hall]. exists r. by rewrite <- app_assoc. }
  do 8 eexists. split; [apply build_intro; vm_compute; reflexivity|]. split; [apply build_intro; vm_compute; reflexivity|].
  split; [intros E; apply (f_equal (fun h => h_next h)) in E; vm_compute in E; discriminate|].
  split; [vm_compute; reflexivity|]. split; [vm_compute; reflexivity|]. split; apply (drain_yields 8); vm_compute; reflexivity.
Qed.
(** A hidden key that is yielded although it is below the bound. *)
Example ex_C58_hidden : let os := [I "bark" 1; I "bath" 2; I "batik" 3; I "dog" 4] in
  tame os 0 /\ (forall w, ~ hollow os w) /\ hidden (ref_ops os ∅) (B "batman") (B "bath") /\ klt (B "bath") (B "batman") /\
  exists h t rs it, build os h t rs /\ seekLowerBound h (newLowerIter (r_root t)) (B "batman") = Ok it /\
   yields (lowerNext h) it [(B "bath", 2); (B "batik", 3); (B "dog", 4)].
Proof.
  cbn zeta. split; [apply tameb_start; by vm_compute|]. split; [apply hollowb_ok; by vm_compute|]. split; [|split].
  { exists (B "b"), (B "a"), 116, (B "bark"), (B "batik"). split; [done|]. split; [by exists (B "tman")|]. split.
    { set (m := ref_ops _ _). assert (Hm : map_Forall (fun i _ => B "b" `prefix_of` i -> (B "b" ++ B "a")%list `prefix_of` i) m) by (apply (bool_decide_unpack _); by vm_compute).
      intros i [v Hi]. exact (Hm i v Hi). }
    split; [vm_compute; eexists; reflexivity|]. split; [by exists (B "rk")|]. split; [apply (bool_decide_unpack _); by vm_compute|]. split; [done|].
    split; [vm_compute; eexists; reflexivity|]. split; [by exists (B "h")|by exists (B "ik")]. }
  { vm_compute. lia. }
  do 4 eexists. split; [apply build_intro; vm_compute; reflexivity|]. split; [vm_compute; reflexivity|].
  apply (drain_yields 8); vm_compute; reflexivity.
Qed.

(** *** C59: what SeekLowerBound yields depends on the history, not only on the contents: two histories end with the
    same contents, SeekLowerBound("xabz") returns on both trees, and only one of them yields "xabcde", which is below the bound. *)
Lemma C59_refuted_proof : exists (os os' : list (op nat)) h t rs h' t' rs' k it it' l l', tame os 0 /\ tame os' 0 /\
  build os h t rs /\ build os' h' t' rs' /\ ref_ops os ∅ = ref_ops os' (∅ : gmap (list nat) nat) /\
  seekLowerBound h (newLowerIter (r_root t)) k = Ok it /\ seekLowerBound h' (newLowerIter (r_root t')) k = Ok it' /\
  yields (lowerNext h) it l /\ yields (lowerNext h') it' l' /\ l <> l'.
Proof.
  exists [I "xabcde" 1; I "z" 2], [I "x" 1; I "xab" 2; I "xabcd" 3; I "xabcde" 1; I "z" 2; D "x"; D "xab"; D "xabcd"].
  do 6 eexists. exists (B "xabz"). do 4 eexists. split; [apply tameb_start; by vm_compute|]. split; [apply tameb_start; by vm_compute|].
  split; [apply build_intro; vm_compute; reflexivity|]. split; [apply build_intro; vm_compute; reflexivity|].
  split; [apply (bool_decide_unpack _); by vm_compute|]. split; [vm_compute; reflexivity|]. split; [vm_compute; reflexivity|].
  split; [apply (drain_yields 8); vm_compute; reflexivity|]. split; [apply (drain_yields 8); vm_compute; reflexivity|]. vm_compute. discriminate.
Qed.
