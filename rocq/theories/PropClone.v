(** Clones leave no trace in the trees that transactions make from them (C69_clones). *)
From Verif Require Import SpecLine Serial ReadAlike ReadTotal ConcMap PropSerial PropLine PropConcMap ProgEq Wp.
From stdpp Require Import list.
Local Open Scope nat_scope.

Section Clone.
Context {V : Type} `{GoZero V}.
Notation corr := (bool -> addr -> addr -> Prop).
Implicit Types b : corr.
Implicit Types js : list (job V).

(** a node as Clone copies it *)
Definition padded (n : inode) : inode := set_partial n (clonePartial (n_partial n)).
Lemma clonePartial_twice p : clonePartial (clonePartial p) = clonePartial p.
Proof. apply clonePartial_id. unfold clonePartial, go_copy. rewrite !app_length, !take_length, drop_length, replicate_length. lia. Qed.
Lemma padded_er n m : er_n n = er_n m -> er_n (padded n) = er_n (padded m).
Proof. destruct n, m. unfold er_n, padded, set_ch, set_partial. cbn. by intros [= -> -> -> -> -> -> -> ->]. Qed.
Lemma padded_twice n c : er_n (padded (set_ch (padded n) c)) = er_n (padded n).
Proof. destruct n. unfold er_n, padded, set_ch, set_partial. cbn. by rewrite clonePartial_twice. Qed.

(** symmetry *)
Definition inv b : corr := fun k x y => b k y x.
Lemma oR_inv b k o o' : oR (b k) o o' -> oR (inv b k) o' o.
Proof. intros []; by constructor. Qed.
Lemma nrel_inv b n n' : nrel b n n' -> nrel (inv b) n' n.
Proof. intros [A1 A2 A3 A4 A5 A6 A7 A8]. split; try done; [|by apply oR_inv]. apply Forall2_flip. eapply Forall2_impl; [exact A7|]. intros x y. apply oR_inv. Qed.
Lemma hrel_inv b (h h' : heap V) : hrel b h h' -> hrel (inv b) h' h.
Proof.
  intros [A1 A2 A3 A4]. split.
  - intros k x y x' y' E E'. pose proof (A1 _ _ _ _ _ E E'). tauto.
  - intros x y Hxy. destruct (A2 _ _ Hxy) as (n & n' & E & E' & Hn). exists n', n. split_and!; [done..|]. by apply nrel_inv.
  - intros x y Hxy. destruct (A3 _ _ Hxy) as (n & n' & E & E' & [B1 B2 B3]). exists n', n. split_and!; [done..|]. by split.
  - intros k x y Hxy. destruct (A4 _ _ _ Hxy). done.
Qed.

(** What cloneN does *)
Lemma cloneN_effect a (h : heap V) n : h_nodes h !! a = Some n -> a < h_next h -> exists c h2, cloneN a true h = (Ok (h_next h), h2) /\ h_next h2 = S (h_next h) /\
  h_nodes h2 !! h_next h = Some (set_ch (padded n) c) /\ forall x, x < h_next h -> sameC h h2 x.
Proof.
  intros Hn Ha. unfold cloneN, getMutateChN, bind, hloadN, ret. rewrite Hn. destruct (n_ch n) as [c|] eqn:Ec; cbn.
  - rewrite Hn. cbn. eexists _, _. split; [done|]. split; [done|]. cbn. split; [by rewrite lookup_insert|]. intros x Hx. split; [|done]. unfold sameN. cbn. by rewrite lookup_insert_ne by lia.
  - rewrite lookup_insert. cbn. eexists _, _. split; [done|]. split; [done|]. cbn. split; [by rewrite lookup_insert|]. intros x Hx. split; [|done]. unfold sameN. cbn.
    rewrite lookup_insert_ne by lia. destruct (decide (x = a)) as [->|]; [|by rewrite lookup_insert_ne by done]. rewrite lookup_insert, Hn. done.
Qed.
Lemma sameN_node (h h2 : heap V) x n : sameC h h2 x -> h_nodes h !! x = Some n -> exists m, h_nodes h2 !! x = Some m /\ er_n m = er_n n.
Proof. intros [S _] Hn. unfold sameN in S. rewrite Hn in S. destruct (h_nodes h2 !! x) as [m|]; [|done]. apply (inj Some) in S. eauto. Qed.

(** Two trees whose roots correspond as far as Clone copies them *)
Definition cous (h : heap V) (T : rtree) (h' : heap V) (T' : rtree) : Prop := exists b n n', hrel b h h' /\ h_nodes h !! r_root T = Some n /\ h_nodes h' !! r_root T' = Some n' /\
  r_root T < h_next h /\ r_root T' < h_next h' /\ nrel b (padded n) (padded n') /\ r_size T = r_size T' /\ r_max T = r_max T'.
Lemma cous_sym (h : heap V) T (h' : heap V) T' : cous h T h' T' -> cous h' T' h T.
Proof. intros (b & n & n' & A1 & A2 & A3 & A4 & A5 & A6 & A7 & A8). exists (inv b), n', n. split_and!; try done; [by apply hrel_inv|by apply nrel_inv]. Qed.
Lemma cous_left (h : heap V) T (h' : heap V) T' h2 : cous h T h' T' -> h_next h <= h_next h2 -> (forall x, x < h_next h -> sameC h h2 x) -> cous h2 T h' T'.
Proof.
  intros (b & n & n' & A1 & A2 & A3 & A4 & A5 & A6 & A7 & A8) Hl HS. destruct (sameN_node _ _ _ _ (HS _ A4) A2) as (m & Hm & Em). exists b, m, n'. split_and!; try done; [|lia|].
  - eapply hrel_left; [exact A1|]. intros k x y Hxy. destruct (hr_lt _ _ _ A1 _ _ _ Hxy). split; [lia|by apply HS].
  - eapply nrel_er1; [|exact A6]. by apply padded_er.
Qed.
(** a clone of the first tree *)
Lemma cous_clone (h : heap V) T (h' : heap V) T' : cous h T h' T' -> exists h2, cloneN (r_root T) true h = (Ok (h_next h), h2) /\
  cous h2 (mkT (h_next h) (r_size T) (r_max T)) h' T'.
Proof.
  intros (b & n & n' & A1 & A2 & A3 & A4 & A5 & A6 & A7 & A8). destruct (cloneN_effect _ _ _ A2 A4) as (c & h2 & E & En & Hn & HS). exists h2. split; [done|].
  exists b, (set_ch (padded n) c), n'. cbn [r_root r_size r_max]. split_and!; try done; [|lia|].
  - eapply hrel_left; [exact A1|]. intros k x y Hxy. destruct (hr_lt _ _ _ A1 _ _ _ Hxy). split; [lia|by apply HS].
  - eapply nrel_er1; [|exact A6]. symmetry. apply padded_twice.
Qed.
(** clones of both *)
Lemma cous_both (h : heap V) T (h' : heap V) T' : cous h T h' T' -> exists h2 h2' b2, cloneN (r_root T) true h = (Ok (h_next h), h2) /\ cloneN (r_root T') true h' = (Ok (h_next h'), h2') /\
  hrel b2 h2 h2' /\ b2 true (h_next h) (h_next h').
Proof.
  intros (b & n & n' & A1 & A2 & A3 & A4 & A5 & A6 & A7 & A8). destruct (cloneN_effect _ _ _ A2 A4) as (c & h2 & E & En & Hn & HS). destruct (cloneN_effect _ _ _ A3 A5) as (c' & h2' & E' & En' & Hn' & HS').
  exists h2, h2', (addc b true (h_next h) (h_next h')). split; [done|]. split; [done|]. split; [|by right].
  assert (HR : hrel b h2 h2'). { eapply hrel_same; [exact A1| |]; intros k x y Hxy; destruct (hr_lt _ _ _ A1 _ _ _ Hxy); (split; [lia|]); [by apply HS|by apply HS']. }
  split.
  - apply addc_bij; [apply A1|apply A1].
  - intros x y [Hxy|(_ & -> & ->)].
    + destruct (hr_N _ _ _ HR _ _ Hxy) as (m & m' & E1 & E2 & Hm). exists m, m'. split_and!; [done..|]. eapply nrel_le; [apply addc_le|done].
    + exists (set_ch (padded n) c), (set_ch (padded n') c'). split_and!; [done..|]. eapply nrel_le; [apply addc_le|]. eapply (nrel_er1 _ _ (padded n)); [done|]. by eapply (nrel_er2 _ _ (padded n')).
  - intros x y [Hxy|(? & _)]; [|done]. by apply (hr_L _ _ _ HR).
  - intros k x y [Hxy|(_ & -> & ->)]; [by apply (hr_lt _ _ _ HR _ _ _ Hxy)|]. lia.
Qed.

(** *** In serial executions *)
Lemma cous_later js T js' T' js2 js2' : cous (serial js).1 T (serial js').1 T' -> cous (serial (js ++ js2)).1 T (serial (js' ++ js2')).1 T'.
Proof.
  intros HC. destruct (serial_keep js js2) as (A & B & _), (serial_keep js' js2') as (A' & B' & _). eapply cous_left; [|done|done]. apply cous_sym. eapply cous_left; [|done|done]. by apply cous_sym.
Qed.
Lemma sib_cous js T js' T' : sib js T js' T' -> cous (serial js).1 T (serial js').1 T'.
Proof.
  intros (b & Hb & A1 & A2 & A3). destruct (hr_N _ _ _ Hb _ _ A1) as (n & n' & E & E' & [B1 B2 B3 B4 B5 B6 B7 B8]). destruct (hr_lt _ _ _ Hb _ _ _ A1). exists b, n, n'. split_and!; try done.
  split; try done. cbn. by rewrite B5.
Qed.
(** the job that clones *)
Lemma clone_job js k T h2 : (serial js).2 !! k = Some T -> cloneN (r_root T) true (serial js).1 = (Ok (h_next (serial js).1), h2) ->
  serial (js ++ [JClone k]) = (h2, (serial js).2 ++ [mkT (h_next (serial js).1) (r_size T) (r_max T)]).
Proof.
  intros ET E. rewrite serial_snoc. cbn [jrun jbase jprog]. rewrite ET. unfold cloner. rewrite run_pbind. unfold bind. rewrite req_cloneN. unfold liftH. cbn [s_h s_t]. rewrite E. done.
Qed.
Lemma cous_cloneL js k T h' T' : (serial js).2 !! k = Some T -> cous (serial js).1 T h' T' -> exists X, (serial (js ++ [JClone k])).2 = (serial js).2 ++ [X] /\ cous (serial (js ++ [JClone k])).1 X h' T'.
Proof. intros ET HC. destruct (cous_clone _ _ _ _ HC) as (h2 & E & HC2). rewrite (clone_job _ _ _ _ ET E). eauto. Qed.
Lemma clone_jobs js k T js' k' T' : (serial js).2 !! k = Some T -> (serial js').2 !! k' = Some T' -> cous (serial js).1 T (serial js').1 T' ->
  exists X X', (serial (js ++ [JClone k])).2 = (serial js).2 ++ [X] /\ (serial (js' ++ [JClone k'])).2 = (serial js').2 ++ [X'] /\ sib (js ++ [JClone k]) X (js' ++ [JClone k']) X'.
Proof.
  intros ET ET' HC. destruct (cous_both _ _ _ _ HC) as (h2 & h2' & b2 & E & E' & HR & Hb). unfold sib. rewrite (clone_job _ _ _ _ ET E), (clone_job _ _ _ _ ET' E').
  eexists _, _. split; [done|]. split; [done|]. exists b2. split; [done|]. destruct HC as (b & n & n' & _ & _ & _ & _ & _ & _ & A7 & A8). by split_and!.
Qed.
(** a transaction *)
Lemma txn_jobs js k c T js' k' T' : (serial js).2 !! k = Some T -> (serial js').2 !! k' = Some T' -> cous (serial js).1 T (serial js').1 T' -> hands_out js (JTxn k c) ->
  exists X X', (serial (js ++ [JTxn k c])).2 = (serial js).2 ++ [X] /\ (serial (js' ++ [JTxn k' c])).2 = (serial js').2 ++ [X'] /\ sib (js ++ [JTxn k c]) X (js' ++ [JTxn k' c]) X'.
Proof.
  intros ET ET' HC Ho. destruct (cous_both _ _ _ _ HC) as (h2 & h2' & b2 & E & E' & HR & Hb). destruct HC as (_ & _ & _ & _ & _ & _ & _ & _ & _ & A7 & A8).
  destruct (hands_job js (JTxn k c) ltac:(done) Ho) as (T0 & X & s & E0 & Er & Es). cbn [jbase] in E0. rewrite ET in E0. injection E0 as <-.
  pose proof (serial_ends js (JTxn k c) T ltac:(done) ET) as N1. pose proof (serial_ends js' (JTxn k' c) T' ltac:(done) ET') as N2.
  assert (R1 : forall (h : heap V) tr r h0, cloneN (r_root tr) true h = (Ok r, h0) -> run (goroutine tr c) (mkS h (noTxn tr)) = run (pclient c) (mkS h0 (mkTx r (r_size tr) (r_max tr) (r_size tr) (r_max tr) false []))).
  { intros h tr r h0 Ec. unfold goroutine. rewrite run_pbind. unfold bind. rewrite run_newTxn. cbn [s_h s_t]. unfold newTxn, bind. rewrite Ec. done. }
  cbn [jprog] in *. rewrite (R1 _ _ _ _ E) in N1. rewrite (R1 _ _ _ _ E') in N2. pose proof Er as Er0. rewrite (R1 _ _ _ _ E) in Er0.
  destruct (prel_run false otR b2 (pclient c) (pclient c) h2 (mkTx (h_next (serial js).1) (r_size T) (r_max T) (r_size T) (r_max T) false []) h2' (mkTx (h_next (serial js').1) (r_size T') (r_max T') (r_size T') (r_max T') false [])) as [Z|[Z|[[Z _]|Z]]].
  - apply pr_client, HR.
  - apply hrel_srel; [done| |done]. by split.
  - done.
  - done.
  - by rewrite Er0 in Z.
  - destruct Z as (a & s1 & a' & s1' & b' & E1 & E2 & _ & S1 & HO). rewrite Er0 in E1. injection E1 as <- <-. inversion HO as [x y Hxy|]; subst.
    assert (Er' : run (jprog (JTxn k' c) T') (mkS (serial js').1 (noTxn T')) = (Ok (Some y), s1')) by (cbn [jprog]; by rewrite (R1 _ _ _ _ E')).
    destruct (job_hands js' (JTxn k' c) T' y s1' ltac:(done) ET' Er') as [Ho' Es']. exists X, y. unfold sib. rewrite Es, Es'. split_and!; [done..|]. exists b'. split; [by eapply srel_hrel|done].
Qed.

Lemma last_tree js1 g js2 (X T : rtree) : (serial (js1 ++ [g])).2 = (serial js1).2 ++ [X] -> (serial ((js1 ++ [g]) ++ js2)).2 !! length (serial js1).2 = Some T -> T = X.
Proof. intros E ET. destruct (serial_keep (js1 ++ [g]) js2) as (_ & _ & l & El). rewrite El, E in ET. rewrite <- app_assoc, lookup_app_r, Nat.sub_diag in ET by lia. by injection ET as <-. Qed.
Definition cousins (r r' : making V) : Prop := forall js i js' i' T T', made js i r -> made js' i' r' -> (serial js).2 !! i = Some T -> (serial js').2 !! i' = Some T' ->
  cous (serial js).1 T (serial js').1 T'.
Lemma cousins_sym r r' : cousins r r' -> cousins r' r.
Proof. intros HC js i js' i' T T' M M' ET ET'. apply cous_sym. by eapply HC. Qed.
Lemma cousins_clone r r' : cousins r r' -> cousins (MClone r) r'.
Proof.
  intros HC js i js' i' T T' M M' ET ET'. destruct (made_inv _ _ _ M) as (js1 & g & js2 & -> & -> & Ho & (k & -> & Mk)). destruct (lookup_lt_is_Some_2 _ _ (made_lt _ _ _ Mk)) as [U EU].
  destruct (cous_cloneL js1 k U _ T' EU (HC _ _ _ _ _ _ Mk M' EU ET')) as (X & E & HX). rewrite (last_tree _ _ _ _ _ E ET). rewrite <- (app_nil_r js'). by apply cous_later.
Qed.
Lemma sibs_txn r r' c js i js' i' T T' : cousins r r' -> made js i (MTxn r c) -> made js' i' (MTxn r' c) -> (serial js).2 !! i = Some T -> (serial js').2 !! i' = Some T' -> sib js T js' T'.
Proof.
  intros HC M M' ET ET'. destruct (made_inv _ _ _ M) as (js1 & g & js2 & -> & -> & Ho & (k & -> & Mk)), (made_inv _ _ _ M') as (js1' & g' & js2' & -> & -> & Ho' & (k' & -> & Mk')).
  destruct (lookup_lt_is_Some_2 _ _ (made_lt _ _ _ Mk)) as [U EU]. destruct (lookup_lt_is_Some_2 _ _ (made_lt _ _ _ Mk')) as [U' EU'].
  destruct (txn_jobs js1 k c U js1' k' U' EU EU' (HC _ _ _ _ _ _ Mk Mk' EU EU') Ho) as (X & X' & E & E' & HS). rewrite (last_tree _ _ _ _ _ E ET), (last_tree _ _ _ _ _ E' ET'). by apply sib_later.
Qed.
Lemma sibs_clone r r' js i js' i' T T' : cousins r r' -> made js i (MClone r) -> made js' i' (MClone r') -> (serial js).2 !! i = Some T -> (serial js').2 !! i' = Some T' -> sib js T js' T'.
Proof.
  intros HC M M' ET ET'. destruct (made_inv _ _ _ M) as (js1 & g & js2 & -> & -> & Ho & (k & -> & Mk)), (made_inv _ _ _ M') as (js1' & g' & js2' & -> & -> & Ho' & (k' & -> & Mk')).
  destruct (lookup_lt_is_Some_2 _ _ (made_lt _ _ _ Mk)) as [U EU]. destruct (lookup_lt_is_Some_2 _ _ (made_lt _ _ _ Mk')) as [U' EU'].
  destruct (clone_jobs js1 k U js1' k' U' EU EU' (HC _ _ _ _ _ _ Mk Mk' EU EU')) as (X & X' & E & E' & HS). rewrite (last_tree _ _ _ _ _ E ET), (last_tree _ _ _ _ _ E' ET'). by apply sib_later.
Qed.
(** transactions that only look *)
Lemma run_getT (s : st V) : run pgetT s = (Ok (s_t s), s). Proof. by destruct s. Qed.
Lemma run_putT t (s : st V) : run (pputT t) s = (Ok tt, mkS (s_h s) t). Proof. by destruct s. Qed.
Lemma looks_run (c : client V) : looks c -> forall h t T s, t_chs t = [] -> run (pclient c) (mkS h t) = (Ok (Some T), s) -> s_h s = h /\ T = commitOnly t.
Proof.
  induction c as [k v next IH|k next IH|k next IH|k next IH|w next IH| |]; cbn [looks pclient]; intros Hc h t T s Ht; try done.
  - rewrite run_pbind. unfold bind at 1. rewrite run_getT. cbn [s_t]. rewrite run_pbind. unfold bind at 1. rewrite run_getFrom. cbn [s_h].
    destruct (getFrom h (t_root t) k) as [r| |]; [|done..]. by apply IH.
  - rewrite run_pbind. unfold bind at 1. rewrite run_getT. cbn [s_t]. rewrite run_pbind. unfold bind at 1. rewrite run_putT. cbn [s_h].
    intros E. by destruct (IH Hc h (set_t_track t w) T s Ht E).
  - rewrite run_pbind. unfold bind at 1. rewrite req_commit. unfold commit, bind, getT. cbn [s_t]. destruct (t_track t) eqn:Et.
    + unfold notify, bind, getT. cbn [s_t]. rewrite Et. unfold slowNotify, bind, getT, liftH, putT. cbn [s_t s_h]. rewrite Ht. cbn. by intros [= <- <-].
    + cbn. by intros [= <- <-].
Qed.
Lemma look_job js k c T h2 : looks c -> hands_out js (JTxn k c) -> (serial js).2 !! k = Some T -> cloneN (r_root T) true (serial js).1 = (Ok (h_next (serial js).1), h2) ->
  serial (js ++ [JTxn k c]) = (h2, (serial js).2 ++ [mkT (h_next (serial js).1) (r_size T) (r_max T)]).
Proof.
  intros Hc Ho ET E. destruct (hands_job js (JTxn k c) ltac:(done) Ho) as (T0 & X & s & E0 & Er & ->). cbn [jbase] in E0. rewrite ET in E0. injection E0 as <-. cbn [jprog] in Er.
  unfold goroutine in Er. rewrite run_pbind in Er. unfold bind in Er. rewrite run_newTxn in Er. cbn [s_h s_t] in Er. unfold newTxn, bind in Er. rewrite E in Er. unfold ret in Er.
  apply (looks_run c Hc) in Er as [-> ->]; done.
Qed.
Lemma cousins_look r r' c : looks c -> cousins r r' -> cousins (MTxn r c) r'.
Proof.
  intros Hc HC js i js' i' T T' M M' ET ET'. destruct (made_inv _ _ _ M) as (js1 & g & js2 & -> & -> & Ho & (k & -> & Mk)). destruct (lookup_lt_is_Some_2 _ _ (made_lt _ _ _ Mk)) as [U EU].
  destruct (cous_clone _ _ _ _ (HC _ _ _ _ _ _ Mk M' EU ET')) as (h2 & E & HX). pose proof (look_job _ _ _ _ _ Hc Ho EU E) as ES.
  rewrite (last_tree js1 (JTxn k c) js2 _ T ltac:(by rewrite ES) ET). rewrite <- (app_nil_r js'). apply cous_later. by rewrite ES.
Qed.
Lemma like_cousins r r' : like r r' -> cousins r r'.
Proof.
  induction 1 as [|r r' c _ IH|r r' _ IH|r r' c Hc _ IH|r r' _ IH].
  - intros js i js' i' T T' M M' ET ET'. apply sib_cous. by eapply made_sib.
  - intros js i js' i' T T' M M' ET ET'. apply sib_cous. by eapply sibs_txn.
  - by apply cousins_clone.
  - by apply cousins_look.
  - by apply cousins_sym.
Qed.
Lemma strip_cousins r : forall r', strip r = strip r' -> cousins r r'.
Proof.
  induction r as [|r IH c|r IH]; intros r'; cbn [strip].
  - induction r' as [|r' _ c'|r' IH']; cbn [strip]; intros E; [|done|by apply cousins_sym, cousins_clone, cousins_sym, IH'].
    intros js i js' i' T T' M M' ET ET'. apply sib_cous. by eapply made_sib.
  - induction r' as [|r' _ c'|r' IH']; cbn [strip]; intros E; [done| |by apply cousins_sym, cousins_clone, cousins_sym, IH'].
    injection E as E <-. intros js i js' i' T T' M M' ET ET'. apply sib_cous. eapply sibs_txn; [by apply IH|done..].
  - intros E. by apply cousins_clone, IH.
Qed.
Lemma strip_sib r r' js i js' i' T T' : strip r = strip r' -> cloned r = cloned r' -> made js i r -> made js' i' r' -> (serial js).2 !! i = Some T -> (serial js').2 !! i' = Some T' -> sib js T js' T'.
Proof.
  intros E C M M' ET ET'. destruct r as [|r c|r], r' as [|r' c'|r']; try done; cbn [strip] in E.
  - by eapply made_sib.
  - injection E as E <-. eapply sibs_txn; [by apply strip_cousins|done..].
  - eapply sibs_clone; [by apply strip_cousins|done..].
Qed.
End Clone.

(** *** C69_clones: clones on the way leave no trace: two trees made by the same transactions, whatever was cloned in between and how often, read alike, if both or neither
    of them is itself handed out by Clone. *)
Lemma C69_clones_proof {V} `{GoZero V} (c : cfg V) js gs i tr (c' : cfg V) js' gs' i' tr' r r' : recorded c js gs -> recorded c' js' gs' -> made js i r -> made js' i' r' ->
  strip r = strip r' -> cloned r = cloned r' -> c_pub c !! i = Some tr -> c_pub c' !! i' = Some tr' -> reads_alike (c_h c) tr (c_h c') tr'.
Proof.
  intros R R' M M' E C Ei Ei'. destruct (C55_serial_proof c js gs R) as [_ Ha], (C55_serial_proof c' js' gs' R') as [_ Ha'].
  destruct (lookup_lt_is_Some_2 _ _ (made_lt _ _ _ M)) as [T ET]. destruct (lookup_lt_is_Some_2 _ _ (made_lt _ _ _ M')) as [T' ET'].
  eapply reads_alike_trans; [by apply (Ha i)|]. eapply reads_alike_trans; [|apply reads_alike_sym; by apply (Ha' i')].
  destruct (strip_sib r r' _ _ _ _ _ _ E C M M' ET ET') as (b & Hb & A1 & A2 & A3). eapply alike; [exact Hb|apply serial_ranked|done|done].
Qed.
(** C69_looks: transactions that only look (Get, TrackMutate, Commit) leave no trace either: a transaction makes the same of two trees that differ in clones and in such
    transactions on the way. *)
Lemma C69_looks_proof {V} `{GoZero V} (c : cfg V) js gs i tr (c' : cfg V) js' gs' i' tr' r r' cl : recorded c js gs -> recorded c' js' gs' -> like r r' ->
  made js i (MTxn r cl) -> made js' i' (MTxn r' cl) -> c_pub c !! i = Some tr -> c_pub c' !! i' = Some tr' -> reads_alike (c_h c) tr (c_h c') tr'.
Proof.
  intros R R' L M M' Ei Ei'. destruct (C55_serial_proof c js gs R) as [_ Ha], (C55_serial_proof c' js' gs' R') as [_ Ha'].
  destruct (lookup_lt_is_Some_2 _ _ (made_lt _ _ _ M)) as [T ET]. destruct (lookup_lt_is_Some_2 _ _ (made_lt _ _ _ M')) as [T' ET'].
  eapply reads_alike_trans; [by apply (Ha i)|]. eapply reads_alike_trans; [|apply reads_alike_sym; by apply (Ha' i')].
  destruct (sibs_txn _ _ _ _ _ _ _ _ _ (like_cousins _ _ L) M M' ET ET') as (b & Hb & A1 & A2 & A3). eapply alike; [exact Hb|apply serial_ranked|done|done].
Qed.

(** *** Example: goroutine 2 works on a clone of the tree that goroutine 3 works on, both run the same client at the same time. *)
Definition clsched : list (rmove nat) :=
  [RNEW; RGO 0 mc0; RRUN 0 1000; REND 0; RCLONE 1; RRUN 1 1000; REND 1; RGO 2 mc2; RGO 1 mc2] ++ concat (replicate 12 [RRUN 2 3; RRUN 3 2]) ++ [RRUN 2 1000; REND 2; RRUN 3 1000; REND 3].
Definition cljobs : list (job nat) := [JNew; JTxn 0 mc0; JClone 1; JTxn 2 mc2; JTxn 1 mc2].
Definition cl3 : making nat := MTxn (MClone (MTxn MNew mc0)) mc2.
Definition cl4 : making nat := MTxn (MTxn MNew mc0) mc2.
Lemma cljobs_made : made cljobs 3 cl3 /\ made cljobs 4 cl4.
Proof.
  assert (M0 : made [JNew] 0 (MNew (V := nat))) by exact (made_new []).
  assert (M1 : made [JNew; JTxn 0 mc0] 1 (MTxn MNew mc0)). { eapply made_at; [apply (made_txn [JNew] 0 mc0 MNew M0)|]; vm_compute; reflexivity. }
  assert (M2 : made [JNew; JTxn 0 mc0; JClone 1] 2 (MClone (MTxn MNew mc0))). { eapply made_at; [apply (made_clone [JNew; JTxn 0 mc0] 1 _ M1)|]; vm_compute; reflexivity. }
  assert (M3 : made [JNew; JTxn 0 mc0; JClone 1; JTxn 2 mc2] 3 cl3). { eapply made_at; [apply (made_txn [JNew; JTxn 0 mc0; JClone 1] 2 mc2 _ M2)|]; vm_compute; reflexivity. }
  pose proof (made_later [JNew; JTxn 0 mc0] (JClone 1) _ _ M1) as M4. pose proof (made_later _ (JTxn 2 mc2) _ _ M4) as M5.
  split; [exact (made_later [JNew; JTxn 0 mc0; JClone 1; JTxn 2 mc2] _ _ _ M3)|].
  eapply made_at; [apply (made_txn [JNew; JTxn 0 mc0; JClone 1; JTxn 2 mc2] 1 mc2 _ M5)|]; vm_compute; reflexivity.
Qed.
Example ex_C69_clones : let '(c, js, gs) := rafter clsched in
  recorded c js gs /\ js = cljobs /\ made js 3 cl3 /\ made js 4 cl4 /\ strip cl3 = strip cl4 /\ cl3 <> cl4 /\ cloned cl3 = cloned cl4 /\
  (fun tr => treeWalk (fun k v acc => (acc ++ [k], false)) (c_h c) tr []) <$> (c_pub c !! 3) = Some (Ok [[97; 98]; [98]; [99]]).
Proof.
  pose proof (rafter_recorded clsched ltac:(vm_compute; reflexivity)) as R. destruct (rafter clsched) as [[c js] gs] eqn:E. split; [exact R|].
  assert (Ej : js = cljobs). { change js with (c, js, gs).1.2. rewrite <- E. vm_compute. reflexivity. }
  assert (Ec : c = (rafter clsched).1.1) by by rewrite E. rewrite Ec. clear R E Ec. subst js. destruct cljobs_made as [M3 M4]. split_and!; [done|done|done|done|done|done|vm_compute; reflexivity].
Qed.

(** With a transaction that looks up a key, tracks, and commits before the clone: tree 2; tree 3 is its clone. *)
Definition lookc : client nat := GTrack true (GGet [97] (fun r => if r.2 then GCommit else GStop)).
Definition lksched : list (rmove nat) :=
  [RNEW; RGO 0 mc0; RRUN 0 1000; REND 0; RGO 1 lookc; RRUN 1 1000; REND 1; RCLONE 2; RRUN 2 1000; REND 2; RGO 3 mc2; RGO 1 mc2] ++ concat (replicate 12 [RRUN 3 3; RRUN 4 2]) ++
  [RRUN 3 1000; REND 3; RRUN 4 1000; REND 4].
Definition lkjobs : list (job nat) := [JNew; JTxn 0 mc0; JTxn 1 lookc; JClone 2; JTxn 3 mc2; JTxn 1 mc2].
Lemma lkjobs_made : made lkjobs 4 (MTxn (MClone (MTxn (MTxn MNew mc0) lookc)) mc2) /\ made lkjobs 5 (MTxn (MTxn MNew mc0) mc2).
Proof.
  assert (M0 : made [JNew] 0 (MNew (V := nat))) by exact (made_new []).
  assert (M1 : made [JNew; JTxn 0 mc0] 1 (MTxn MNew mc0)). { eapply made_at; [apply (made_txn [JNew] 0 mc0 MNew M0)|]; vm_compute; reflexivity. }
  assert (M2 : made [JNew; JTxn 0 mc0; JTxn 1 lookc] 2 (MTxn (MTxn MNew mc0) lookc)). { eapply made_at; [apply (made_txn [JNew; JTxn 0 mc0] 1 lookc _ M1)|]; vm_compute; reflexivity. }
  assert (M3 : made [JNew; JTxn 0 mc0; JTxn 1 lookc; JClone 2] 3 (MClone (MTxn (MTxn MNew mc0) lookc))). { eapply made_at; [apply (made_clone [JNew; JTxn 0 mc0; JTxn 1 lookc] 2 _ M2)|]; vm_compute; reflexivity. }
  pose proof (made_later [JNew; JTxn 0 mc0] (JTxn 1 lookc) _ _ M1) as M4. pose proof (made_later _ (JClone 2) _ _ M4) as M5. pose proof (made_later _ (JTxn 3 mc2) _ _ M5) as M6.
  split.
  - apply (made_later [JNew; JTxn 0 mc0; JTxn 1 lookc; JClone 2; JTxn 3 mc2]). eapply made_at; [apply (made_txn [JNew; JTxn 0 mc0; JTxn 1 lookc; JClone 2] 3 mc2 _ M3)|]; vm_compute; reflexivity.
  - eapply made_at; [apply (made_txn [JNew; JTxn 0 mc0; JTxn 1 lookc; JClone 2; JTxn 3 mc2] 1 mc2 _ M6)|]; vm_compute; reflexivity.
Qed.
Example ex_C69_looks : let '(c, js, gs) := rafter lksched in
  recorded c js gs /\ js = lkjobs /\ like (MClone (MTxn (MTxn MNew mc0) lookc)) (MTxn MNew mc0) /\
  made js 4 (MTxn (MClone (MTxn (MTxn MNew mc0) lookc)) mc2) /\ made js 5 (MTxn (MTxn MNew mc0) mc2) /\
  (fun tr => treeWalk (fun k v acc => (acc ++ [k], false)) (c_h c) tr []) <$> (c_pub c !! 4) = Some (Ok [[97; 98]; [98]; [99]]).
Proof.
  pose proof (rafter_recorded lksched ltac:(vm_compute; reflexivity)) as R. destruct (rafter lksched) as [[c js] gs] eqn:E. split; [exact R|].
  assert (Ej : js = lkjobs). { change js with (c, js, gs).1.2. rewrite <- E. vm_compute. reflexivity. }
  assert (Ec : c = (rafter lksched).1.1) by by rewrite E. rewrite Ec. clear R E Ec. subst js. destruct lkjobs_made as [M3 M4]. split_and!; [done| |done|done|vm_compute; reflexivity].
  apply like_clone, like_look; [|apply like_txn, like_new]. intros r. cbn. by destruct r.2.
Qed.
