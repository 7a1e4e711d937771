(** What a tree reads depends only on how it was made (C69). *)
From Verif Require Import SpecLine Serial ReadAlike ReadTotal ConcMap PropSerial PropWorldRef PropConcMap PropScan.
From stdpp Require Import list.
Local Open Scope nat_scope.

Section Line.
Context {V : Type} `{GoZero V}.
Notation corr := (bool -> addr -> addr -> Prop).
Implicit Types b : corr.
Implicit Types js : list (job V).

Lemma reads_alike_sym (h : heap V) (t : rtree) (h' : heap V) (t' : rtree) : reads_alike h t h' t' -> reads_alike h' t' h t.
Proof. intros []. split; intros; by symmetry. Qed.
Lemma reads_alike_trans (h : heap V) (t : rtree) (h' : heap V) (t' : rtree) (h2 : heap V) (t2 : rtree) : reads_alike h t h' t' -> reads_alike h' t' h2 t2 -> reads_alike h t h2 t2.
Proof. intros [] []. split; intros; etrans; eauto. Qed.

Lemma serial_sok js : Serial.sok (serial js).
Proof.
  induction js as [|g js IH] using rev_ind; [split; cbn; [intros; by rewrite !lookup_empty|done]|]. rewrite serial_snoc. by apply jrun_ok.
Qed.
Lemma jrun_trees (S : heap V * list rtree) g : exists l, (jrun S g).2 = S.2 ++ l.
Proof.
  destruct g as [|i c|i]; cbn [jrun].
  - destruct (newTree S.1) as [[T| |] h]; cbn; [eauto|exists []; by rewrite app_nil_r..].
  - destruct (S.2 !! _) as [T|]; [|exists []; by rewrite app_nil_r]. destruct (run _ _) as [[[T'|]| |] s]; cbn; [eauto|exists []; by rewrite app_nil_r..].
  - destruct (S.2 !! _) as [T|]; [|exists []; by rewrite app_nil_r]. destruct (run _ _) as [[[T'|]| |] s]; cbn; [eauto|exists []; by rewrite app_nil_r..].
Qed.
Lemma serial_keep js js2 : h_next (serial js).1 <= h_next (serial (js ++ js2)).1 /\ (forall x, x < h_next (serial js).1 -> sameC (serial js).1 (serial (js ++ js2)).1 x) /\
  exists l, (serial (js ++ js2)).2 = (serial js).2 ++ l.
Proof.
  induction js2 as [|g js2 (A & B & l & E)] using rev_ind.
  - rewrite app_nil_r. split; [done|]. split; [intros; apply sameC_refl|]. exists []. by rewrite app_nil_r.
  - rewrite app_assoc, serial_snoc. destruct (jrun_ok (serial (js ++ js2)) g (serial_sok _)) as (_ & C & D). destruct (jrun_trees (serial (js ++ js2)) g) as [l' E']. split; [lia|]. split.
    + intros x Hx. eapply sameC_trans; [by apply B|]. apply D. lia.
    + exists (l ++ l'). by rewrite E', E, app_assoc.
Qed.

Lemma made_inv js i r : made js i r -> exists js1 g js2, js = (js1 ++ [g]) ++ js2 /\ i = length (serial js1).2 /\ hands_out js1 g /\
  match r with MNew => g = JNew | MTxn r0 c => exists k, g = JTxn k c /\ made js1 k r0 | MClone r0 => exists k, g = JClone k /\ made js1 k r0 end.
Proof.
  intros M. induction M as [js|js k c r M IH Ho|js k r M IH Ho|js g i r M IH].
  - exists js, JNew, []. rewrite app_nil_r. split_and!; try done. unfold hands_out. rewrite serial_snoc. cbn [jrun].
    destruct (newTree (serial js).1) as [o h2] eqn:E2. assert (exists T, o = Ok T) as [T ->]. { unfold newTree, bind, hallocL, hallocN, ret in E2. injection E2 as <- _. eauto. }
    cbn. rewrite app_length. cbn. lia.
  - exists js, (JTxn k c), []. rewrite app_nil_r. split_and!; try done. eauto.
  - exists js, (JClone k), []. rewrite app_nil_r. split_and!; try done. eauto.
  - destruct IH as (js1 & g1 & js2 & -> & -> & Ho & K). exists js1, g1, (js2 ++ [g]). split_and!; try done. by rewrite app_assoc.
Qed.
(** every tree handed out was made in one way *)
Lemma made_some js i : i < length (serial js).2 -> exists r, made js i r.
Proof.
  revert i. induction js as [|g js IH] using rev_ind; intros i Hi; [cbn in Hi; lia|]. destruct (decide (i < length (serial js).2)) as [Hl|Hl].
  - destruct (IH i Hl) as [r M]. exists r. by constructor.
  - assert (hands_out js g /\ i = length (serial js).2 /\ (g = JNew \/ jbase g < length (serial js).2)) as (Ho & -> & Hg).
    { unfold hands_out. rewrite serial_snoc in Hi |- *. destruct g as [|k c|k]; cbn [jrun] in *.
      - destruct (newTree (serial js).1) as [[T| |] h]; cbn in Hi |- *; rewrite ?app_length in *; cbn in *; split_and!; try lia; auto.
      - destruct ((serial js).2 !! _) as [T|] eqn:ET; [|lia]. apply lookup_lt_Some in ET. destruct (run _ _) as [[[T'|]| |] s]; cbn [snd] in Hi |- *; rewrite ?app_length in *; cbn in *; split_and!; try lia; auto.
      - destruct ((serial js).2 !! _) as [T|] eqn:ET; [|lia]. apply lookup_lt_Some in ET. destruct (run _ _) as [[[T'|]| |] s]; cbn [snd] in Hi |- *; rewrite ?app_length in *; cbn in *; split_and!; try lia; auto. }
    destruct Hg as [->|Hg]; [eexists; constructor|]. destruct (IH _ Hg) as [r M]. destruct g as [|k c|k]; [eexists; constructor|eexists; by constructor|eexists; by constructor].
Qed.
Lemma made_lt js i r : made js i r -> i < length (serial js).2.
Proof.
  intros M. destruct (made_inv _ _ _ M) as (js1 & g & js2 & -> & -> & Ho & _). destruct (serial_keep (js1 ++ [g]) js2) as (_ & _ & l & E). rewrite E, app_length. unfold hands_out in Ho. lia.
Qed.

(** A job that hands out a tree *)
Lemma hands_job js g : g <> JNew -> hands_out js g -> exists T T' s, (serial js).2 !! jbase g = Some T /\ run (jprog g T) (mkS (serial js).1 (noTxn T)) = (Ok (Some T'), s) /\
  serial (js ++ [g]) = (s_h s, (serial js).2 ++ [T']).
Proof.
  unfold hands_out. rewrite serial_snoc. intros Hg Ho. destruct g as [|k c|k]; [done|..]; cbn [jrun] in *.
  - destruct ((serial js).2 !! _) as [T|] eqn:ET; [|lia]. destruct (run _ _) as [[[T'|]| |] s] eqn:Er; cbn [snd] in Ho; try lia. eauto 8.
  - destruct ((serial js).2 !! _) as [T|] eqn:ET; [|lia]. destruct (run _ _) as [[[T'|]| |] s] eqn:Er; cbn [snd] in Ho; try lia. eauto 8.
Qed.
Lemma job_hands js g T T' s : g <> JNew -> (serial js).2 !! jbase g = Some T -> run (jprog g T) (mkS (serial js).1 (noTxn T)) = (Ok (Some T'), s) ->
  hands_out js g /\ serial (js ++ [g]) = (s_h s, (serial js).2 ++ [T']).
Proof.
  intros Hg ET Er. unfold hands_out. rewrite serial_snoc. destruct g as [|k c|k]; [done|..]; cbn [jrun] in *; rewrite ET, Er; cbn; rewrite app_length; cbn; (split; [lia|done]).
Qed.
Definition sib js (T : rtree) js' (T' : rtree) : Prop := exists b, hrel b (serial js).1 (serial js').1 /\ tR b T T'.
Lemma sib_later js T js' T' js2 js2' : sib js T js' T' -> sib (js ++ js2) T (js' ++ js2') T'.
Proof.
  intros (b & Hb & Ht). exists b. split; [|done]. destruct (serial_keep js js2) as (A & B & _), (serial_keep js' js2') as (A' & B' & _).
  eapply hrel_same; [exact Hb| |]; intros k x y Hxy; destruct (hr_lt _ _ _ Hb _ _ _ Hxy); (split; [lia|]); [by apply B|by apply B'].
Qed.
Lemma sib_job js js' g g' T T' : g <> JNew -> g' <> JNew -> (forall t, jprog g t = jprog g' t) -> (serial js).2 !! jbase g = Some T -> (serial js').2 !! jbase g' = Some T' ->
  sib js T js' T' -> hands_out js g -> hands_out js' g' /\ exists X X', (serial (js ++ [g])).2 = (serial js).2 ++ [X] /\ (serial (js' ++ [g'])).2 = (serial js').2 ++ [X'] /\ sib (js ++ [g]) X (js' ++ [g']) X'.
Proof.
  intros Hg Hg' HE ET ET' (b & Hb & Ht) Ho. destruct (hands_job js g Hg Ho) as (T0 & X & s & E0 & Er & Es). rewrite ET in E0. injection E0 as <-.
  pose proof (serial_ends js g T Hg ET) as N1. pose proof (serial_ends js' g' T' Hg' ET') as N2. rewrite <- HE in N2.
  destruct (prel_run false otR b (jprog g T) (jprog g T') (serial js).1 (noTxn T) (serial js').1 (noTxn T')) as [Z|[Z|[[Z _]|Z]]].
  - apply pr_job; [apply Hb|done].
  - apply hrel_srel; [done|by apply tR_trel|done].
  - done.
  - done.
  - rewrite Er in Z. done.
  - destruct Z as (a & s1 & a' & s1' & b' & E1 & E2 & _ & S1 & HR). rewrite Er in E1. injection E1 as <- <-. inversion HR as [x y Hxy|]; subst.
    rewrite HE in E2. destruct (job_hands js' g' T' y s1' Hg' ET' E2) as [Ho' Es']. split; [done|]. exists X, y. rewrite Es, Es'. split_and!; [done..|].
    exists b'. rewrite Es, Es'. split; [by eapply srel_hrel|done].
Qed.
Lemma sib_new js js' : exists X X', (serial (js ++ [JNew])).2 = (serial js).2 ++ [X] /\ (serial (js' ++ [JNew])).2 = (serial js').2 ++ [X'] /\ sib (js ++ [JNew]) X (js' ++ [JNew]) X'.
Proof.
  unfold sib. rewrite !serial_snoc. cbn [jrun]. set (h := (serial js).1). set (H0 := (serial js').1).
  destruct (newTree h) as [o h'] eqn:E. destruct (newTree H0) as [o' H1] eqn:EN. unfold newTree, bind, hallocL, hallocN, ret in E, EN. injection E as <- <-. injection EN as <- <-. cbn [fst snd].
  eexists _, _. split; [done|]. split; [done|]. exists (addc (addc (fun _ _ _ => False) false (h_next h) (h_next H0)) true (S (h_next h)) (S (h_next H0))). split.
  - split.
    + apply addc_bij; [apply addc_bij; [by intros k|done]|]. intros k x y [[]|(-> & -> & ->)]. lia.
    + intros x y [[[]|(? & _)]|(_ & -> & ->)]; [done|]. cbn. rewrite !lookup_insert. eexists _, _. split_and!; [done..|]. split; try done.
      * cbn. repeat constructor.
      * cbn. constructor. left. by right.
    + intros x y [[[]|(_ & -> & ->)]|(? & _)]; [|done]. cbn. rewrite !lookup_insert. eexists _, _. split_and!; [done..|]. by split.
    + intros k x y [[[]|(_ & -> & ->)]|(_ & -> & ->)]; cbn; lia.
  - split; [by right|done].
Qed.

Lemma made_sib r : forall js i js' i' T T', made js i r -> made js' i' r -> (serial js).2 !! i = Some T -> (serial js').2 !! i' = Some T' -> sib js T js' T'.
Proof.
  assert (K : forall js1 g js2 js1' g' js2' X X' T T', (serial (js1 ++ [g])).2 = (serial js1).2 ++ [X] -> (serial (js1' ++ [g'])).2 = (serial js1').2 ++ [X'] ->
    (serial ((js1 ++ [g]) ++ js2)).2 !! length (serial js1).2 = Some T -> (serial ((js1' ++ [g']) ++ js2')).2 !! length (serial js1').2 = Some T' ->
    sib (js1 ++ [g]) X (js1' ++ [g']) X' -> sib ((js1 ++ [g]) ++ js2) T ((js1' ++ [g']) ++ js2') T').
  { intros js1 g js2 js1' g' js2' X X' T T' E E' ET ET' HS. destruct (serial_keep (js1 ++ [g]) js2) as (_ & _ & l & El), (serial_keep (js1' ++ [g']) js2') as (_ & _ & l' & El').
    rewrite El, E in ET. rewrite El', E' in ET'. rewrite <- app_assoc, lookup_app_r, Nat.sub_diag in ET, ET' by lia. injection ET as <-. injection ET' as <-. by apply sib_later. }
  induction r as [|r IH c|r IH]; intros js i js' i' T T' M M' ET ET'; destruct (made_inv _ _ _ M) as (js1 & g & js2 & -> & -> & Ho & Q), (made_inv _ _ _ M') as (js1' & g' & js2' & -> & -> & Ho' & Q').
  - subst g g'. destruct (sib_new js1 js1') as (X & X' & E & E' & HS). by eapply K.
  - destruct Q as (k & -> & Mk), Q' as (k' & -> & Mk'). destruct (lookup_lt_is_Some_2 _ _ (made_lt _ _ _ Mk)) as [U EU]. destruct (lookup_lt_is_Some_2 _ _ (made_lt _ _ _ Mk')) as [U' EU'].
    destruct (sib_job js1 js1' (JTxn k c) (JTxn k' c) U U') as (_ & X & X' & E & E' & HS); try done; [by eapply IH|]. by eapply K.
  - destruct Q as (k & -> & Mk), Q' as (k' & -> & Mk'). destruct (lookup_lt_is_Some_2 _ _ (made_lt _ _ _ Mk)) as [U EU]. destruct (lookup_lt_is_Some_2 _ _ (made_lt _ _ _ Mk')) as [U' EU'].
    destruct (sib_job js1 js1' (JClone k) (JClone k') U U') as (_ & X & X' & E & E' & HS); try done; [by eapply IH|]. by eapply K.
Qed.
(** The tree can be made alone. *)
Lemma made_line r : forall js i, made js i r -> made (line r) (age r) r /\ length (serial (line r)).2 = S (age r).
Proof.
  induction r as [|r IH c|r IH]; intros js i M; destruct (made_inv _ _ _ M) as (js1 & g & js2 & -> & -> & Ho & Q).
  - split; [exact (made_new [])|done].
  - destruct Q as (k & -> & Mk). destruct (IH _ _ Mk) as [Ml El]. cbn [line age].
    destruct (lookup_lt_is_Some_2 _ _ (made_lt _ _ _ Mk)) as [U EU]. destruct (lookup_lt_is_Some_2 _ _ (made_lt _ _ _ Ml)) as [U' EU'].
    destruct (sib_job js1 (line r) (JTxn k c) (JTxn (age r) c) U U') as (Ho' & X & X' & E & E' & HS); try done; [by eapply made_sib|]. split.
    + rewrite <- El. by constructor.
    + unfold hands_out in Ho'. lia.
  - destruct Q as (k & -> & Mk). destruct (IH _ _ Mk) as [Ml El]. cbn [line age].
    destruct (lookup_lt_is_Some_2 _ _ (made_lt _ _ _ Mk)) as [U EU]. destruct (lookup_lt_is_Some_2 _ _ (made_lt _ _ _ Ml)) as [U' EU'].
    destruct (sib_job js1 (line r) (JClone k) (JClone (age r)) U U') as (Ho' & X & X' & E & E' & HS); try done; [by eapply made_sib|]. split.
    + rewrite <- El. by constructor.
    + unfold hands_out in Ho'. lia.
Qed.
Lemma made_alike r js i js' i' T T' : made js i r -> made js' i' r -> (serial js).2 !! i = Some T -> (serial js').2 !! i' = Some T' ->
  reads_alike (serial js).1 T (serial js').1 T'.
Proof. intros M M' ET ET'. destruct (made_sib r _ _ _ _ _ _ M M' ET ET') as (b & Hb & A1 & A2 & A3). eapply alike; [exact Hb|apply serial_ranked|done|done]. Qed.
Lemma made_one js i r : made js i r -> forall r', made js i r' -> r' = r.
Proof.
  assert (K : forall js1 (g : job V) js2 js1' g' js2', (js1 ++ [g]) ++ js2 = (js1' ++ [g']) ++ js2' -> length (serial js1).2 = length (serial js1').2 -> hands_out js1 g -> length js1' <= length js1).
  { intros js1 g js2 js1' g' js2' E El Ho. destruct (decide (length js1' <= length js1)) as [|Hl]; [done|]. exfalso.
    assert (js1' = (js1 ++ [g]) ++ drop (S (length js1)) js1') as E1.
    { rewrite <- (take_drop (S (length js1)) js1') at 1. f_equal. transitivity (take (S (length js1)) ((js1' ++ [g']) ++ js2')).
      - rewrite <- app_assoc, take_app_le by lia. done.
      - rewrite <- E. rewrite take_app_alt; [done|]. rewrite app_length. cbn. lia. }
    destruct (serial_keep (js1 ++ [g]) (drop (S (length js1)) js1')) as (_ & _ & l & E2). rewrite <- E1 in E2. unfold hands_out in Ho. rewrite E2, app_length in El. lia. }
  revert js i. induction r as [|r IH c|r IH]; intros js i M r' M'; destruct (made_inv _ _ _ M) as (js1 & g & js2 & E1 & -> & Ho & Q), (made_inv _ _ _ M') as (js1' & g' & js2' & E1' & E2 & Ho' & Q');
    subst js; pose proof (K _ _ _ _ _ _ E1' E2 Ho); pose proof (K _ _ _ _ _ _ (eq_sym E1') (eq_sym E2) Ho'); rewrite <- !app_assoc in E1'; apply app_inj_1 in E1' as [<- E1']; try lia; cbn in E1'; injection E1' as <- _.
  - subst g. destruct r'; [done|destruct Q' as (? & ? & _); done|destruct Q' as (? & ? & _); done].
  - destruct Q as (k & -> & Mk). destruct r' as [|r' c'|r']; [done| |destruct Q' as (? & ? & _); done]. destruct Q' as (k' & [= <- <-] & Mk'). f_equal. by eapply IH.
  - destruct Q as (k & -> & Mk). destruct r' as [|r' c'|r']; [done|destruct Q' as (? & ? & _); done|]. destruct Q' as (k' & [= <-] & Mk'). f_equal. by eapply IH.
Qed.
End Line.

(** *** C69 What a tree reads depends only on how it was made: two trees made in the same way, in two executions of any goroutines (or in one), read alike. *)
Lemma C69_proof {V} `{GoZero V} (c : cfg V) js gs i tr (c' : cfg V) js' gs' i' tr' r : recorded c js gs -> recorded c' js' gs' -> made js i r -> made js' i' r ->
  c_pub c !! i = Some tr -> c_pub c' !! i' = Some tr' -> reads_alike (c_h c) tr (c_h c') tr'.
Proof.
  intros R R' M M' Ei Ei'. destruct (C55_serial_proof c js gs R) as [_ Ha], (C55_serial_proof c' js' gs' R') as [_ Ha'].
  destruct (lookup_lt_is_Some_2 _ _ (made_lt _ _ _ M)) as [T ET]. destruct (lookup_lt_is_Some_2 _ _ (made_lt _ _ _ M')) as [T' ET'].
  eapply reads_alike_trans; [by apply (Ha i)|]. eapply reads_alike_trans; [by eapply made_alike|]. apply reads_alike_sym. by apply (Ha' i').
Qed.
(** Every tree that was handed out was made in exactly one way. *)
Lemma C69_made_proof {V} `{GoZero V} (c : cfg V) js gs i tr : recorded c js gs -> c_pub c !! i = Some tr -> exists r, made js i r /\ forall r', made js i r' -> r' = r.
Proof.
  intros R Ei. destruct (C55_serial_proof c js gs R) as [Hl _]. destruct (made_some js i) as [r M]. { rewrite Hl. by eapply lookup_lt_Some. }
  exists r. split; [done|]. intros r' M'. clear R Ei Hl. by eapply made_one.
Qed.
(** The tree alone: the jobs on the path to it, run one after the other and nothing else, hand out a tree that reads alike. *)
Lemma C69_alone_proof {V} `{GoZero V} (c : cfg V) js gs i tr r : recorded c js gs -> made js i r -> c_pub c !! i = Some tr ->
  made (line r) (age r) r /\ exists T, (serial (line r)).2 !! age r = Some T /\ reads_alike (c_h c) tr (serial (line r)).1 T.
Proof.
  intros R M Ei. destruct (made_line r js i M) as [Ml _]. split; [done|]. destruct (lookup_lt_is_Some_2 _ _ (made_lt _ _ _ Ml)) as [T' ET']. exists T'. split; [done|].
  destruct (C55_serial_proof c js gs R) as [_ Ha]. destruct (lookup_lt_is_Some_2 _ _ (made_lt _ _ _ M)) as [T ET]. eapply reads_alike_trans; [by apply (Ha i)|]. by eapply made_alike.
Qed.
(** A tree answers as its reference map if the jobs on the path to it are covered, whatever the other goroutines do (and Walk, DFS and LongestPrefix do if those jobs remove nothing). *)
Lemma C69_maps_proof {V} `{GoZero V} (c : cfg V) js gs i tr r ns : recorded c js gs -> made js i r -> c_pub c !! i = Some tr -> jobs_ok (line r) ns ->
  exists ts m d, jobs_run (line r) ts /\ ts !! age r = Some (m, d) /\ answers_as (c_h c) tr m /\ (exists x, x <= d /\ treeLen tr = N.of_nat (size m + x)) /\
    (Forall job_adds (line r) -> m <> ∅ -> scans_as (c_h c) tr m).
Proof.
  intros R M Ei Ho. destruct (C69_alone_proof c js gs i tr r R M Ei) as (Ml & T & ET & Ha). set (ls := line r) in *. clearbody ls.
  destruct (jobs_covered ls ns Ho) as (g & K1 & K2 & K3). destruct (serial_world ls) as (rs & Ee & Es & Hd & _).
  destruct Ho as (_ & Hs & _). assert (Hlen : (N.of_nat (length (scalls ls).1) < 2 ^ 64)%N) by lia. destruct (C48_proof _ g rs (scalls ls).2 K1 Hd Hlen Ee) as (Hlt & _ & Hrd & _).
  rewrite Es in ET, Ha. cbn in ET, Ha. destruct (lookup_lt_is_Some_2 (g_trees g) (age r)) as [[m d] Eg]. { apply lookup_lt_Some in ET. lia. }
  destruct (Hrd _ T m d ET Eg) as [Hra Hx]. exists (g_trees g), m, d. split_and!; [done|done|by eapply answers| |].
  - by rewrite (ra_len _ _ _ _ Ha).
  - intros Hadd Hne. eapply scans_alike; [exact Ha|]. eapply C68_proof; eauto using scalls_adds.
Qed.
(** A goroutine does not panic if its job and the jobs on the path to the tree that it started from are covered, whatever the other goroutines do. *)
Lemma C69_ends_proof {V} `{GoZero V} (c : cfg V) js gs i k cl r ns o t : recorded c js gs -> gs !! i = Some (JTxn k cl) -> made js k r -> jobs_ok (line (MTxn r cl)) ns ->
  c_th c !! i = Some (Some (PRet o, t)) -> exists x, o = Ok x.
Proof.
  intros R Eg M Ho Ei. destruct o as [x| |]; [eauto| |].
  - exfalso. destruct (C55_panic_proof c js gs i t _ R Ei Eg) as (T & ET & Hp). destruct (made_line r js k M) as [Ml _]. destruct (lookup_lt_is_Some_2 _ _ (made_lt _ _ _ Ml)) as [T' ET'].
    apply (jobs_no_panic (line r) (JTxn (age r) cl) ns T'); [done|done|done|]. destruct (made_sib r _ _ _ _ _ _ M Ml ET ET') as (b & Hb & Ht).
    pose proof (serial_ends js (JTxn k cl) T ltac:(done) ET) as N1. pose proof (serial_ends (line r) (JTxn (age r) cl) T' ltac:(done) ET') as N2.
    destruct (prel_run false otR b (jprog (JTxn k cl) T) (jprog (JTxn (age r) cl) T') (serial js).1 (noTxn T) (serial (line r)).1 (noTxn T')) as [Z|[Z|[[_ Z]|Z]]]; try done.
    + apply (pr_job false b T T' (JTxn k cl)); [apply Hb|done].
    + apply hrel_srel; [done|by apply tR_trel|done].
    + destruct Z as (a & s1 & a' & s1' & b' & E1 & _). rewrite E1 in Hp. done.
  - exfalso. assert (Hr : reachable c) by (apply C55_recorded_proof; eauto). destruct (C55_ends_proof c i _ t Hr Ei) as [He _]. by apply (He NoFuel).
Qed.

(** *** Examples *)
(** Goroutine 2 removes a prefix and writes a key with a reserved byte (neither is covered) while goroutines 1 and 3 run the same client on the same tree; trees 3 and 4 are theirs. *)
Definition wild : client nat := GDeletePrefix [97] (fun _ => GInsert [99; dollar] 7 (fun _ => GCommit)).
Definition lsched : list (rmove nat) :=
  [RNEW; RGO 0 mc0; RRUN 0 1000; REND 0; RGO 1 mc2; RGO 1 wild; RGO 1 mc2] ++ concat (replicate 12 [RRUN 1 3; RRUN 2 4; RRUN 3 1]) ++ [RRUN 2 1000; REND 2; RRUN 3 1000; REND 3; RRUN 1 1000; REND 1].
Definition ljobs : list (job nat) := [JNew; JTxn 0 mc0; JTxn 1 wild; JTxn 1 mc2; JTxn 1 mc2].
Definition lmade : making nat := MTxn (MTxn MNew mc0) mc2.
Lemma made_at {V} `{GoZero V} (js : list (job V)) i j r : made js i r -> i = j -> made js j r.
Proof. by intros ? <-. Qed.
Lemma ljobs_made : made ljobs 3 lmade /\ made ljobs 4 lmade.
Proof.
  assert (M0 : made [JNew] 0 (MNew (V := nat))) by exact (made_new []).
  assert (M1 : made [JNew; JTxn 0 mc0] 1 (MTxn MNew mc0)). { eapply made_at; [apply (made_txn [JNew] 0 mc0 MNew M0)|]; vm_compute; reflexivity. }
  assert (M2 : made [JNew; JTxn 0 mc0; JTxn 1 wild] 1 (MTxn MNew mc0)) by exact (made_later [JNew; JTxn 0 mc0] _ _ _ M1).
  assert (M3 : made [JNew; JTxn 0 mc0; JTxn 1 wild; JTxn 1 mc2] 3 lmade). { eapply made_at; [apply (made_txn [JNew; JTxn 0 mc0; JTxn 1 wild] 1 mc2 _ M2)|]; vm_compute; reflexivity. }
  assert (M4 : made [JNew; JTxn 0 mc0; JTxn 1 wild; JTxn 1 mc2] 1 (MTxn MNew mc0)) by exact (made_later [JNew; JTxn 0 mc0; JTxn 1 wild] _ _ _ M2).
  split; [exact (made_later [JNew; JTxn 0 mc0; JTxn 1 wild; JTxn 1 mc2] _ _ _ M3)|].
  eapply made_at; [apply (made_txn [JNew; JTxn 0 mc0; JTxn 1 wild; JTxn 1 mc2] 1 mc2 _ M4)|]; vm_compute; reflexivity.
Qed.
Example ex_C69 : let '(c, js, gs) := rafter lsched in
  recorded c js gs /\ js = ljobs /\ made js 3 lmade /\ made js 4 lmade /\ (exists ns, jobs_ok (line lmade) ns) /\ Forall job_adds (line lmade) /\
  (fun tr => treeWalk (fun k v acc => (acc ++ [k], false)) (c_h c) tr []) <$> (c_pub c !! 3) = Some (Ok [[97; 98]; [98]; [99]]) /\
  (fun tr => treeGet (c_h c) tr [97]) <$> (c_pub c !! 2) = Some (Ok (0, false)) /\ (fun tr => treeGet (c_h c) tr [97]) <$> (c_pub c !! 3) = Some (Ok (1, true)).
Proof.
  pose proof (rafter_recorded lsched ltac:(vm_compute; reflexivity)) as R. destruct (rafter lsched) as [[c js] gs] eqn:E. split; [exact R|].
  assert (Ej : js = ljobs). { change js with (c, js, gs).1.2. rewrite <- E. vm_compute. reflexivity. }
  assert (Ec : c = (rafter lsched).1.1) by by rewrite E. rewrite Ec. clear R E Ec. subst js. destruct ljobs_made as [M3 M4]. split_and!; [done|done|done| | |vm_compute; reflexivity..].
  - destruct (jobsb (line lmade) []) as [[ts ns]|] eqn:E; [|by vm_compute in E].
    destruct (jobsb_all _ _ _ E) as [A B]. { change ns with (ts, ns).2. vm_compute in E. injection E as <- <-. vm_compute. reflexivity. } by exists ns.
  - repeat constructor. all: cbn; intros; repeat case_match; done.
Qed.
