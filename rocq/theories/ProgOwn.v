(** Which cells a goroutine that runs the updates of one transaction accesses, whatever the other goroutines do in between.

    The ghost state of a goroutine is a set D of cells it may reach and a set W of cells it has created, with W inside D.
    Between two of its commands the others may change anything but the cells of D (of which they may set channels) (rely).
    Its own commands write only cells of W and new cells (guar). *)
From Verif Require Export ProgEq Own.
Local Open Scope nat_scope.

Section ProgOwn.
Context {V : Type} `{GoZero V}.
Record gst := mkG { gD : addr -> Prop; gW : addr -> Prop; gs : st V }.
Notation nd g := (h_nodes (s_h (gs g))).
Notation lv g := (h_leaves (s_h (gs g))).
Notation nx g := (h_next (s_h (gs g))).
Notation om g := (t_oldmax (s_t (gs g))).
Notation mx g := (t_max (s_t (gs g))).

Definition oD (g : gst) (o : option addr) : Prop := match o with Some x => gD g x | None => True end.
Record wf (g : gst) (n : inode) : Prop := mk_wf {
  wf_id : n_id n <= mx g;
  wf_ch : forall o, o ∈ n_children n -> oD g o;
  wf_leaf : oD g (n_leaf n) }.
Record good (g : gst) : Prop := mk_good {
  gd_lt : forall x, gD g x -> x < nx g;
  gd_W : forall x, gW g x -> gD g x;
  gd_fresh : forall x, nx g <= x -> nd g !! x = None /\ lv g !! x = None;
  gd_max : om g <= mx g;
  gd_root : gD g (t_root (s_t (gs g)));
  gd_node : forall x n, nd g !! x = Some n -> gD g x -> wf g n /\ (om g < n_id n -> gW g x);
  gd_lf : forall x l, lv g !! x = Some l -> gD g x -> l_id l <= mx g /\ (om g < l_id l -> gW g x) }.
Record grow (g g' : gst) : Prop := mk_grow {
  gr_D : forall x, gD g x -> gD g' x;
  gr_W : forall x, gW g x -> gW g' x;
  gr_om : om g' = om g;
  gr_mx : mx g <= mx g' }.
Definition sameN (h h' : heap V) (x : addr) : Prop := er_n <$> h_nodes h' !! x = er_n <$> h_nodes h !! x.
Definition sameL (h h' : heap V) (x : addr) : Prop := er_l <$> h_leaves h' !! x = er_l <$> h_leaves h !! x.
Definition sameC h h' x : Prop := sameN h h' x /\ sameL h h' x.
Record rely (g g' : gst) : Prop := mk_rely {
  ry_D : gD g' = gD g;
  ry_W : gW g' = gW g;
  ry_t : s_t (gs g') = s_t (gs g);
  ry_nx : nx g <= nx g';
  ry_fresh : forall x, nx g' <= x -> nd g' !! x = None /\ lv g' !! x = None;
  ry_same : forall x, gD g x -> sameC (s_h (gs g)) (s_h (gs g')) x }.
Record guar (g g' : gst) : Prop := mk_guar {
  gu_D : forall x, gD g' x -> gD g x \/ nx g <= x;
  gu_W : forall x, gW g' x -> gW g x \/ nx g <= x;
  gu_nx : nx g <= nx g';
  gu_grow : grow g g';
  gu_same : forall x, x < nx g -> ~ gW g x -> sameC (s_h (gs g)) (s_h (gs g')) x }.

Lemma sameC_refl h x : sameC h h x. Proof. done. Qed.
Lemma sameC_trans h1 h2 h3 x : sameC h1 h2 x -> sameC h2 h3 x -> sameC h1 h3 x.
Proof. intros [A1 A2] [B1 B2]. split; unfold sameN, sameL in *; congruence. Qed.
Lemma grow_refl g : grow g g. Proof. by split. Qed.
Lemma grow_trans a b c : grow a b -> grow b c -> grow a c.
Proof. intros [A1 A2 A3 A4] [B1 B2 B3 B4]. split; auto; [congruence|lia]. Qed.
Lemma rely_refl g : good g -> rely g g.
Proof. intros Hg. split; auto; [apply (gd_fresh _ Hg)|]. intros x _. apply sameC_refl. Qed.
Lemma rely_trans a b c : rely a b -> rely b c -> rely a c.
Proof.
  intros [A1 A2 A3 A4 A5 A6] [B1 B2 B3 B4 B5 B6]. split; try congruence; [lia|done|]. intros x Hx. eapply sameC_trans; [by apply A6|]. apply B6. by rewrite A1.
Qed.
Lemma rely_grow g g' : rely g g' -> grow g g'.
Proof. intros [A1 A2 A3 A4 A5 A6]. split; rewrite ?A1, ?A2, ?A3; auto. Qed.
Lemma oD_grow g g' o : grow g g' -> oD g o -> oD g' o.
Proof. intros G. destruct o; [apply (gr_D _ _ G)|done]. Qed.
Lemma wf_grow g g' n : grow g g' -> wf g n -> wf g' n.
Proof. intros G [A1 A2 A3]. split; [pose proof (gr_mx _ _ G); lia| |by eapply oD_grow]. intros o Ho. eapply oD_grow; eauto. Qed.
Lemma er_n_wf g n n' : er_n n = er_n n' -> wf g n -> wf g n'.
Proof.
  intros E [A1 A2 A3]. split.
  - by rewrite (f_equal n_id E : n_id n = n_id n') in A1.
  - by rewrite (f_equal n_children E : n_children n = n_children n') in A2.
  - by rewrite (f_equal n_leaf E : n_leaf n = n_leaf n') in A3.
Qed.
Lemma sameN_back h h' x n : sameN h h' x -> h_nodes h' !! x = Some n -> exists m, h_nodes h !! x = Some m /\ er_n m = er_n n.
Proof. unfold sameN. intros E En. rewrite En in E. destruct (h_nodes h !! x) as [m|]; [|done]. cbn in E. apply (inj Some) in E. eauto. Qed.
Lemma sameL_back h h' x n : sameL h h' x -> h_leaves h' !! x = Some n -> exists m, h_leaves h !! x = Some m /\ er_l m = er_l n.
Proof. unfold sameL. intros E En. rewrite En in E. destruct (h_leaves h !! x) as [m|]; [|done]. cbn in E. apply (inj Some) in E. eauto. Qed.
Lemma rely_good g g' : good g -> rely g g' -> good g'.
Proof.
  intros Hg R. pose proof (rely_grow _ _ R) as G. destruct Hg as [A1 A2 A3 A4 A5 A6 A7]. destruct R as [B1 B2 B3 B4 B5 B6]. split.
  - intros x. rewrite B1. intros Hx. specialize (A1 x Hx). lia.
  - by rewrite B1, B2.
  - done.
  - by rewrite B3.
  - by rewrite B1, B3.
  - intros x n. rewrite B1, B2, B3. intros Hn Hx. destruct (sameN_back _ _ _ _ (proj1 (B6 x Hx)) Hn) as (m & Hm & E).
    destruct (A6 x m Hm Hx) as [W1 W2]. split; [eapply er_n_wf; [exact E|]; by eapply wf_grow|]. by rewrite <- (f_equal n_id E : n_id m = n_id n).
  - intros x n. rewrite B1, B2, B3. intros Hn Hx. destruct (sameL_back _ _ _ _ (proj2 (B6 x Hx)) Hn) as (m & Hm & E).
    rewrite <- (f_equal l_id E : l_id m = l_id n). by apply (A7 x m).
Qed.

(** The cells a command accesses: the goroutine must reach them, and must have created the cells it stores to. *)
Definition may (g : gst) {B} (c : cmd V B) : Prop :=
  match c with
  | LoadN a | LoadL a | CasChN a _ | CasChL a _ | SetChN a _ | SetChL a _ | LiveN a | LiveL a => gD g a
  | StoreN a _ | StoreL a _ => gW g a
  | _ => True
  end.
Fixpoint pw {A} (p : prog V A) (Q : A -> gst -> Prop) (g : gst) : Prop :=
  match p with
  | PRet o => match o with Ok a => Q a g | _ => True end
  | Do c k => may g c /\ forall b s2, sem c (gs g) = (Ok b, s2) ->
      exists g2, gs g2 = s2 /\ good g2 /\ guar g g2 /\ forall g3, rely g2 g3 -> pw (k b) Q g3
  end.

Lemma pw_bind {A B} (p : prog V A) (f : A -> prog V B) Q g : pw p (fun a g' => pw (f a) Q g') g -> pw (pbind p f) Q g.
Proof.
  revert g. induction p as [o|C c k IH]; intros g; [by destruct o|]. cbn [pw pbind]. intros [Hm Hk]. split; [done|]. intros b s2 E.
  destruct (Hk b s2 E) as (g2 & E2 & Hg2 & Gu & Hr). exists g2. split_and!; [done..|]. intros g3 R. by apply IH, Hr.
Qed.
Lemma pw_mono {A} (p : prog V A) (P Q : A -> gst -> Prop) g : pw p P g -> (forall a g', P a g' -> Q a g') -> pw p Q g.
Proof.
  intros Hp HPQ. revert g Hp. induction p as [o|C c k IH]; intros g; [destruct o; cbn; auto|]. cbn [pw]. intros [Hm Hk]. split; [done|]. intros b s2 E.
  destruct (Hk b s2 E) as (g2 & E2 & Hg2 & Gu & Hr). exists g2. split_and!; [done..|]. intros g3 R. by apply IH, Hr.
Qed.
Lemma pw_ret {A} (a : A) (Q : A -> gst -> Prop) g : Q a g -> pw (pret a) Q g. Proof. done. Qed.
Lemma pw_panic {A} (Q : A -> gst -> Prop) g : pw ppanic Q g. Proof. done. Qed.
Lemma pw_nofuel {A} (Q : A -> gst -> Prop) g : pw pnofuel Q g. Proof. done. Qed.
Lemma pw_lift {A} (o : outcome A) (Q : A -> gst -> Prop) g : (forall a, o = Ok a -> Q a g) -> pw (plift o) Q g.
Proof. intros HQ. destruct o; cbn; auto. Qed.
Lemma pw_byteAt k i (Q : nat -> gst -> Prop) g : (forall b, Q b g) -> pw (pbyteAt k i) Q g.
Proof. intros HQ. unfold pbyteAt. destruct (k !! i); [apply HQ|done]. Qed.

(** A command that changes nothing but channels *)
Lemma sem_panic {B} (c : cmd V B) s s2 : (sem c s = (Panic, s2) \/ sem c s = (NoFuel, s2)) -> s2 = s.
Proof.
  intros E. destruct s as [h t], c; destruct E as [E|E]; cbn in E;
  unfold loadN, loadL, storeN, storeL, liftH, getT, putT, hloadN, hloadL, hstoreN, hstoreL, hallocN, hallocL, hmakeChan, hcloseIfOpen, casChN, casChL,
    setMutateChN, setMutateChL, bind, ret, hloadN, hloadL, hstoreN, hstoreL in E; cbn in E; try discriminate;
  repeat (case_match; simplify_eq/=); done.
Qed.
Lemma guar_same g g2 : good g -> gD g2 = gD g -> gW g2 = gW g -> s_t (gs g2) = s_t (gs g) -> nx g2 = nx g ->
  (forall x, sameC (s_h (gs g)) (s_h (gs g2)) x) -> good g2 /\ guar g g2.
Proof.
  intros Hg E1 E2 E3 E4 HS. assert (F : forall x, nx g2 <= x -> nd g2 !! x = None /\ lv g2 !! x = None).
  { intros x Hx. rewrite E4 in Hx. destruct (gd_fresh _ Hg x Hx) as [F1 F2]. destruct (HS x) as [S1 S2]. unfold sameN, sameL in *.
    rewrite F1 in S1. rewrite F2 in S2. split; [by destruct (nd g2 !! x)|by destruct (lv g2 !! x)]. }
  assert (R : rely g g2) by (split; auto; lia). split; [by eapply rely_good|].
  split; rewrite ?E1, ?E2, ?E4; auto. by apply rely_grow.
Qed.
Lemma pw_quiet {B} (c : cmd V B) (Q : B -> gst -> Prop) g : good g -> may g c ->
  (forall b s2, sem c (gs g) = (Ok b, s2) -> s_t s2 = s_t (gs g) /\ h_next (s_h s2) = nx g /\ (forall x, sameC (s_h (gs g)) (s_h s2) x) /\
     forall g', good g' -> grow g g' -> s_t (gs g') = s_t (gs g) -> Q b g') -> pw (pdo c) Q g.
Proof.
  intros Hg Hm HQ. cbn [pw pdo]. split; [done|]. intros b s2 E. destruct (HQ b s2 E) as (E1 & E2 & HS & HQ2).
  set (g2 := mkG (gD g) (gW g) s2). destruct (guar_same g g2) as [Hg2 Gu]; [done..|]. exists g2. split_and!; [done..|].
  intros g3 R. apply pw_ret, HQ2; [by eapply rely_good|eapply grow_trans; [apply Gu|by apply rely_grow]|]. by rewrite (ry_t _ _ R).
Qed.
Lemma pw_loadN a (Q : inode -> gst -> Prop) g : good g -> gD g a ->
  (forall n g', good g' -> grow g g' -> wf g' n -> (om g' < n_id n -> gW g' a) -> Q n g') -> pw (ploadN a) Q g.
Proof.
  intros Hg Ha HQ. apply pw_quiet; [done|done|]. intros n s2 E. cbn in E. unfold loadN, liftH, hloadN in E.
  destruct (nd g !! a) as [n'|] eqn:En; [|done]. injection E as <- <-. split_and!; [done..|].
  intros g' Hg' G _. destruct (gd_node _ Hg a n' En Ha) as [W1 W2]. apply HQ; [done..|by eapply wf_grow|]. rewrite (gr_om _ _ G). intros Hid. by apply (gr_W _ _ G), W2.
Qed.
Lemma pw_loadL a (Q : lnode V -> gst -> Prop) g : good g -> gD g a ->
  (forall l g', good g' -> grow g g' -> l_id l <= mx g' -> (om g' < l_id l -> gW g' a) -> Q l g') -> pw (ploadL a) Q g.
Proof.
  intros Hg Ha HQ. apply pw_quiet; [done|done|]. intros n s2 E. cbn in E. unfold loadL, liftH, hloadL in E.
  destruct (lv g !! a) as [n'|] eqn:En; [|done]. injection E as <- <-. split_and!; [done..|].
  intros g' Hg' G _. destruct (gd_lf _ Hg a n' En Ha) as [W1 W2]. apply HQ; [done..|pose proof (gr_mx _ _ G); lia|]. rewrite (gr_om _ _ G). intros Hid. by apply (gr_W _ _ G), W2.
Qed.
Lemma pw_getT (Q : txn -> gst -> Prop) g : good g -> (forall t g', good g' -> grow g g' -> t = s_t (gs g') -> Q t g') -> pw pgetT Q g.
Proof. intros Hg HQ. apply pw_quiet; [done..|]. intros b s2 [= <- <-]. split_and!; [done..|]. intros. by apply HQ. Qed.
Lemma pw_fuel (Q : nat -> gst -> Prop) g : good g -> (forall f g', good g' -> grow g g' -> Q f g') -> pw pfuel Q g.
Proof. intros Hg HQ. apply pw_quiet; [done..|]. intros b s2 [= <- <-]. split_and!; [done..|]. intros. by apply HQ. Qed.
Lemma pw_makeChan (Q : chan -> gst -> Prop) g : good g -> (forall f g', good g' -> grow g g' -> Q f g') -> pw pmakeChan Q g.
Proof. intros Hg HQ. apply pw_quiet; [done..|]. intros b s2 [= <- <-]. split_and!; [done..|]. intros. by apply HQ. Qed.
Lemma pw_close c (Q : unit -> gst -> Prop) g : good g -> (forall g', good g' -> grow g g' -> Q tt g') -> pw (pclose c) Q g.
Proof.
  intros Hg HQ. apply pw_quiet; [done..|]. intros b s2 E. cbn in E. unfold liftH, hcloseIfOpen in E. destruct b.
  case_match; injection E as <-; split_and!; try done; intros; by apply HQ.
Qed.
Lemma pw_liveN a (Q : bool -> gst -> Prop) g : good g -> gD g a -> (forall f g', good g' -> grow g g' -> Q f g') -> pw (pliveN a) Q g.
Proof. intros Hg Ha HQ. apply pw_quiet; [done..|]. intros b s2 [= <- <-]. split_and!; [done..|]. intros. by apply HQ. Qed.
Lemma pw_liveL a (Q : bool -> gst -> Prop) g : good g -> gD g a -> (forall f g', good g' -> grow g g' -> Q f g') -> pw (pliveL a) Q g.
Proof. intros Hg Ha HQ. apply pw_quiet; [done..|]. intros b s2 [= <- <-]. split_and!; [done..|]. intros. by apply HQ. Qed.
Lemma same_setN h a n m x : h_nodes h !! a = Some n -> er_n m = er_n n -> sameC h (set_nodes h (<[a := m]> (h_nodes h))) x.
Proof.
  intros En E. split; [|done]. unfold sameN. cbn. destruct (decide (x = a)) as [->|Hne]; [rewrite lookup_insert, En; cbn; by rewrite E|by rewrite lookup_insert_ne].
Qed.
Lemma same_setL h a n m x : h_leaves h !! a = Some n -> er_l m = er_l n -> sameC h (set_leaves h (<[a := m]> (h_leaves h))) x.
Proof.
  intros En E. split; [done|]. unfold sameL. cbn. destruct (decide (x = a)) as [->|Hne]; [rewrite lookup_insert, En; cbn; by rewrite E|by rewrite lookup_insert_ne].
Qed.
Lemma pw_casN a c (Q : chan -> gst -> Prop) g : good g -> gD g a -> (forall f g', good g' -> grow g g' -> Q f g') -> pw (pdo (CasChN a c)) Q g.
Proof.
  intros Hg Ha HQ. apply pw_quiet; [done..|]. intros b s2 E. cbn in E. unfold liftH, casChN, bind, hloadN in E.
  destruct (nd g !! a) as [n|] eqn:En; [|done]. destruct (n_ch n); unfold ret, hstoreN in E; injection E as <- <-; split_and!; try done; try (intros; by apply HQ).
  intros x. by apply same_setN with n.
Qed.
Lemma pw_casL a c (Q : chan -> gst -> Prop) g : good g -> gD g a -> (forall f g', good g' -> grow g g' -> Q f g') -> pw (pdo (CasChL a c)) Q g.
Proof.
  intros Hg Ha HQ. apply pw_quiet; [done..|]. intros b s2 E. cbn in E. unfold liftH, casChL, bind, hloadL in E.
  destruct (lv g !! a) as [n|] eqn:En; [|done]. destruct (l_ch n); unfold ret, hstoreL in E; injection E as <- <-; split_and!; try done; try (intros; by apply HQ).
  intros x. by apply same_setL with n.
Qed.
Lemma pw_setChN a c (Q : unit -> gst -> Prop) g : good g -> gD g a -> (forall g', good g' -> grow g g' -> Q tt g') -> pw (psetMutateChN a c) Q g.
Proof.
  intros Hg Ha HQ. apply pw_quiet; [done..|]. intros [] s2 E. cbn in E. unfold liftH, setMutateChN, bind, hloadN in E.
  destruct (nd g !! a) as [n|] eqn:En; [|done]. unfold ret, hstoreN in E; injection E as <-; split_and!; try done; try (intros; by apply HQ).
  intros x. by apply same_setN with n.
Qed.
Lemma pw_setChL a c (Q : unit -> gst -> Prop) g : good g -> gD g a -> (forall g', good g' -> grow g g' -> Q tt g') -> pw (psetMutateChL a c) Q g.
Proof.
  intros Hg Ha HQ. apply pw_quiet; [done..|]. intros [] s2 E. cbn in E. unfold liftH, setMutateChL, bind, hloadL in E.
  destruct (lv g !! a) as [n|] eqn:En; [|done]. unfold ret, hstoreL in E; injection E as <-; split_and!; try done; try (intros; by apply HQ).
  intros x. by apply same_setL with n.
Qed.

(** Commands that change the Txn, write or allocate *)
Lemma pw_step {B} (c : cmd V B) (Q : B -> gst -> Prop) g : good g -> may g c ->
  (forall b s2, sem c (gs g) = (Ok b, s2) -> exists g2, gs g2 = s2 /\ good g2 /\ guar g g2 /\
     forall g', good g' -> rely g2 g' -> grow g g' -> Q b g') -> pw (pdo c) Q g.
Proof.
  intros Hg Hm HQ. cbn [pw pdo]. split; [done|]. intros b s2 E. destruct (HQ b s2 E) as (g2 & E2 & Hg2 & Gu & HQ2). exists g2. split_and!; [done..|].
  intros g3 R. apply pw_ret, HQ2; [by eapply rely_good|done|]. eapply grow_trans; [apply Gu|by apply rely_grow].
Qed.
Lemma pw_putT t (Q : unit -> gst -> Prop) g : good g -> gD g (t_root t) -> t_oldmax t = om g -> mx g <= t_max t ->
  (forall g', good g' -> grow g g' -> s_t (gs g') = t -> Q tt g') -> pw (pputT t) Q g.
Proof.
  intros Hg Hr Ho Hm HQ. apply pw_step; [done|exact Logic.I|]. intros [] s2 [= <-]. set (g2 := mkG (gD g) (gW g) (mkS (s_h (gs g)) t)).
  assert (G : grow g g2) by by split. exists g2. split_and!; [done| | |].
  - destruct Hg as [A1 A2 A3 A4 A5 A6 A7]. split; cbn; try done; [lia| |].
    + intros x n Hn Hx. rewrite Ho. destruct (A6 x n Hn Hx) as [W1 W2]. split; [by eapply wf_grow|done].
    + intros x n Hn Hx. rewrite Ho. destruct (A7 x n Hn Hx) as [W1 W2]. split; [lia|done].
  - split; cbn; auto. done.
  - intros g' Hg' R G'. apply HQ; [done..|]. by rewrite (ry_t _ _ R).
Qed.
Lemma pw_storeN a n (Q : unit -> gst -> Prop) g : good g -> gW g a -> wf g n -> (forall g', good g' -> grow g g' -> Q tt g') -> pw (pstoreN a n) Q g.
Proof.
  intros Hg Ha Hn HQ. apply pw_step; [done..|]. intros [] s2 E. cbn in E. unfold storeN, liftH, hstoreN in E. injection E as <-.
  match goal with |- exists g2, gs g2 = ?s2 /\ _ => set (g2 := mkG (gD g) (gW g) s2) end.
  assert (G : grow g g2) by by split. exists g2. split_and!; [done| | |].
  - destruct Hg as [A1 A2 A3 A4 A5 A6 A7]. split; cbn; try done.
    + intros x Hx. pose proof (A1 a (A2 a Ha)). rewrite lookup_insert_ne by lia. by apply A3.
    + intros x m Hm Hx. apply lookup_insert_Some in Hm as [[<- <-]|[Hne Hm]]; [split; [by eapply wf_grow|done]|].
      destruct (A6 x m Hm Hx) as [W1 W2]. split; [by eapply wf_grow|done].
  - split; cbn; auto. intros x Hx HW. split; [|done]. unfold sameN. cbn. rewrite lookup_insert_ne; [done|]. intros ->. done.
  - intros g' Hg' R G'. by apply HQ.
Qed.
Lemma pw_storeL a n (Q : unit -> gst -> Prop) g : good g -> gW g a -> l_id n <= mx g -> (forall g', good g' -> grow g g' -> Q tt g') -> pw (pstoreL a n) Q g.
Proof.
  intros Hg Ha Hn HQ. apply pw_step; [done..|]. intros [] s2 E. cbn in E. unfold storeL, liftH, hstoreL in E. injection E as <-.
  match goal with |- exists g2, gs g2 = ?s2 /\ _ => set (g2 := mkG (gD g) (gW g) s2) end.
  assert (G : grow g g2) by by split. exists g2. split_and!; [done| | |].
  - destruct Hg as [A1 A2 A3 A4 A5 A6 A7]. split; cbn; try done.
    + intros x Hx. pose proof (A1 a (A2 a Ha)). rewrite lookup_insert_ne by lia. by apply A3.
    + intros x m Hm Hx. destruct (A6 x m Hm Hx) as [W1 W2]. split; [by eapply wf_grow|done].
    + intros x m Hm Hx. apply lookup_insert_Some in Hm as [[<- <-]|[Hne Hm]]; [done|]. by apply (A7 x m).
  - split; cbn; auto. intros x Hx HW. split; [done|]. unfold sameL. cbn. rewrite lookup_insert_ne; [done|]. intros ->. done.
  - intros g' Hg' R G'. by apply HQ.
Qed.
Lemma pw_allocN n (Q : addr -> gst -> Prop) g : good g -> wf g n -> (forall a g', good g' -> grow g g' -> gW g' a -> Q a g') -> pw (pallocN n) Q g.
Proof.
  intros Hg Hn HQ. apply pw_step; [done..|]. intros a s2 E. cbn in E. unfold liftH, hallocN in E. injection E as <- <-.
  match goal with |- exists g2, gs g2 = ?s2 /\ _ => set (g2 := mkG (fun x => gD g x \/ x = nx g) (fun x => gW g x \/ x = nx g) s2) end.
  assert (G : grow g g2) by (split; cbn; auto). exists g2. split_and!; [done| | |].
  - destruct Hg as [A1 A2 A3 A4 A5 A6 A7]. split; cbn; try done.
    + intros x [Hx| ->]; [|lia]. specialize (A1 x Hx). lia.
    + intros x [Hx| ->]; auto.
    + intros x Hx. rewrite lookup_insert_ne by lia. apply A3. lia.
    + by left.
    + intros x m Hm Hx. apply lookup_insert_Some in Hm as [[<- <-]|[Hne Hm]]; [split; [by eapply wf_grow|by right]|].
      destruct Hx as [Hx| ->]; [|done]. destruct (A6 x m Hm Hx) as [W1 W2]. split; [by eapply wf_grow|by left; apply W2].
    + intros x m Hm [Hx| ->]; [destruct (A7 x m Hm Hx); split; [done|by left; eauto]|]. destruct (A3 (nx g)) as [_ F]; [lia|]. by rewrite F in Hm.
  - split; cbn; [..|done|].
    + intros x [?| ->]; auto.
    + intros x [?| ->]; auto.
    + lia.
    + intros x Hx HW. split; [|done]. unfold sameN. cbn. rewrite lookup_insert_ne; [done|lia].
  - intros g' Hg' R G'. apply HQ; [done..|]. rewrite (ry_W _ _ R). by right.
Qed.
Lemma pw_allocL n (Q : addr -> gst -> Prop) g : good g -> l_id n <= mx g -> (forall a g', good g' -> grow g g' -> gW g' a -> Q a g') -> pw (pallocL n) Q g.
Proof.
  intros Hg Hn HQ. apply pw_step; [done..|]. intros a s2 E. cbn in E. unfold liftH, hallocL in E. injection E as <- <-.
  match goal with |- exists g2, gs g2 = ?s2 /\ _ => set (g2 := mkG (fun x => gD g x \/ x = nx g) (fun x => gW g x \/ x = nx g) s2) end.
  assert (G : grow g g2) by (split; cbn; auto). exists g2. split_and!; [done| | |].
  - destruct Hg as [A1 A2 A3 A4 A5 A6 A7]. split; cbn; try done.
    + intros x [Hx| ->]; [|lia]. specialize (A1 x Hx). lia.
    + intros x [Hx| ->]; auto.
    + intros x Hx. rewrite lookup_insert_ne by lia. apply A3. lia.
    + by left.
    + intros x m Hm [Hx| ->]; [destruct (A6 x m Hm Hx); split; [by eapply wf_grow|by left; eauto]|]. destruct (A3 (nx g)) as [F _]; [lia|]. by rewrite F in Hm.
    + intros x m Hm Hx. apply lookup_insert_Some in Hm as [[<- <-]|[Hne Hm]]; [split; [done|by right]|].
      destruct Hx as [Hx| ->]; [|done]. destruct (A7 x m Hm Hx) as [W1 W2]. split; [done|by left; apply W2].
  - split; cbn; [..|done|].
    + intros x [?| ->]; auto.
    + intros x [?| ->]; auto.
    + lia.
    + intros x Hx HW. split; [done|]. unfold sameL. cbn. rewrite lookup_insert_ne; [done|lia].
  - intros g' Hg' R G'. apply HQ; [done..|]. rewrite (ry_W _ _ R). by right.
Qed.

(** ** Composite programs *)
Definition idb (g : gst) (i : nat) : Prop := i <= mx g.
Definition cond (g : gst) (i : nat) (a : addr) : Prop := om g < i -> gW g a.
Definition since (g g' : gst) : Prop := grow g g'.
Definition fD g (l : list (option addr)) : Prop := Forall (oD g) l.
Lemma gD_grow g g' x : grow g g' -> gD g x -> gD g' x. Proof. intros G. apply G. Qed.
Lemma gW_grow g g' x : grow g g' -> gW g x -> gW g' x. Proof. intros G. apply G. Qed.
Lemma idb_grow g g' x : grow g g' -> idb g x -> idb g' x. Proof. intros G. unfold idb. pose proof (gr_mx _ _ G). lia. Qed.
Lemma cond_grow g g' i x : grow g g' -> cond g i x -> cond g' i x. Proof. intros G Hc. unfold cond. rewrite (gr_om _ _ G). intros Hi. by apply (gr_W _ _ G), Hc. Qed.
Lemma since_grow g0 g g' : grow g g' -> since g0 g -> since g0 g'. Proof. intros G Hs. by eapply grow_trans. Qed.
Lemma fD_grow g g' l : grow g g' -> fD g l -> fD g' l.
Proof. intros G Hl. eapply Forall_impl; [exact Hl|]. intros o. by apply oD_grow. Qed.
Lemma gW_D g x : good g -> gW g x -> gD g x. Proof. intros Hg. apply (gd_W _ Hg). Qed.
Lemma wf_fD g n : wf g n -> fD g (n_children n). Proof. intros [_ H2 _]. by apply Forall_forall. Qed.
Lemma wf_keeps g n n' : wf g n -> keeps (oD g) n n' -> wf g n'.
Proof.
  intros [H1 H2 H3] (K1 & K2 & K3). split; rewrite ?K1, ?K2; [done| |done]. apply Forall_forall, K3. by apply Forall_forall.
Qed.
Lemma wf_set_leaf g n l : wf g n -> oD g l -> wf g (set_leaf n l). Proof. intros [H1 H2 H3] Hl. by split. Qed.
Lemma wf_set_id g n i : wf g n -> idb g i -> wf g (set_id n i). Proof. intros [H1 H2 H3] Hl. by split. Qed.
Lemma wf_set_ch g n c : wf g n -> wf g (set_ch n c). Proof. intros [H1 H2 H3]. by split. Qed.
Lemma wf_set_partial g n c : wf g n -> wf g (set_partial n c). Proof. intros [H1 H2 H3]. by split. Qed.
Lemma wf_zero g k i p q : idb g i -> wf g (set_plen (set_partial (set_id (zero_node k) i) p) q).
Proof. intros Hi. split; cbn; [done| |done]. intros o Ho. apply elem_of_replicate in Ho as [-> _]. done. Qed.
Lemma D_leaf g n l : n_leaf n = Some l -> wf g n -> gD g l. Proof. intros E [_ _ Hl]. by rewrite E in Hl. Qed.
Lemma D_find g n c x i : findChild n c = Ok (Some x, i) -> wf g n -> gD g x.
Proof. intros E Hp. apply (P_findChild (oD g) Logic.I _ _ _ _ E). by apply wf_fD. Qed.
Lemma D_getChild g n c x : getChild n c = Ok (Some x) -> wf g n -> gD g x.
Proof. intros E Hp. apply (P_getChild (oD g) Logic.I _ _ _ E). by apply wf_fD. Qed.

Ltac tr1 E g g' := repeat match goal with
  | Hx : gD g _ |- _ => apply (gD_grow g g' _ E) in Hx
  | Hx : gW g _ |- _ => apply (gW_grow g g' _ E) in Hx
  | Hx : oD g _ |- _ => apply (oD_grow g g' _ E) in Hx
  | Hx : wf g _ |- _ => apply (wf_grow g g' _ E) in Hx
  | Hx : idb g _ |- _ => apply (idb_grow g g' _ E) in Hx
  | Hx : cond g _ _ |- _ => apply (cond_grow g g' _ _ E) in Hx
  | Hx : since _ g |- _ => apply (since_grow _ g g' E) in Hx
  | Hx : fD g _ |- _ => apply (fD_grow g g' _ E) in Hx
  end.
Ltac tr := repeat match goal with E : grow ?g ?g' |- _ => tr1 E g g'; clear E; try match goal with Hg : good g |- _ => clear Hg end end.
Ltac side := lazymatch goal with
  | |- good _ => assumption
  | |- gW _ _ => first [assumption | match goal with Hc : cond _ ?i ?a |- gW _ ?a => apply Hc; apply Nat.ltb_lt; assumption end]
  | |- gD _ _ => first [assumption | apply gW_D; [assumption|assumption] | eapply D_leaf; eassumption | eapply D_find; eassumption | eapply D_getChild; eassumption]
  | |- oD _ None => exact Logic.I
  | |- oD _ (Some _) => cbn [oD]; first [assumption | apply gW_D; [assumption|assumption] | eapply D_leaf; eassumption | eapply D_find; eassumption | eapply D_getChild; eassumption]
  | |- oD _ (n_leaf _) => first [assumption | eapply wf_leaf; eassumption]
  | |- oD _ _ => assumption
  | |- idb _ _ => assumption
  | |- since _ _ => assumption
  | |- grow _ _ => assumption
  | |- wf _ (set_id _ _) => first [assumption | apply wf_set_id; [assumption|assumption]]
  | |- wf _ _ => first [assumption | apply wf_set_ch; assumption | apply wf_set_ch, wf_set_partial; assumption | apply wf_set_partial; assumption | match goal with E : mergePrefix _ ?m = Ok (_, ?n), W : wf ?g ?m |- wf ?g ?n => eapply wf_keeps; [exact W|]; eapply kp_mergePrefix; first [exact E|exact Logic.I] end]
  | |- fD _ _ => first [assumption | apply wf_fD; assumption]
  end.
Definition ask {A} (P : A -> gst -> Prop) (g : gst) (Q : A -> gst -> Prop) : Prop := forall a g', good g' -> grow g g' -> P a g' -> Q a g'.
Definition spec {A} (p : prog V A) (P : A -> gst -> Prop) (g : gst) : Prop := forall Q, ask P g Q -> pw p Q g.
Lemma sp_ret {A} (a : A) (P : A -> gst -> Prop) g : good g -> P a g -> spec (pret a) P g.
Proof. intros Hg HP Q HQ. apply pw_ret, HQ; [done|apply grow_refl|done]. Qed.
Lemma sp_panic {A} (P : A -> gst -> Prop) g : spec ppanic P g. Proof. intros Q HQ. apply pw_panic. Qed.
Lemma sp_nofuel {A} (P : A -> gst -> Prop) g : spec pnofuel P g. Proof. intros Q HQ. apply pw_nofuel. Qed.
Lemma sp_bind {A B} (p : prog V A) (f : A -> prog V B) P R g :
  spec p P g -> (forall a g', good g' -> grow g g' -> P a g' -> spec (f a) R g') -> spec (pbind p f) R g.
Proof.
  intros Hp Hf Q HQ. apply pw_bind, Hp. intros a g' Hg' G HP. apply (Hf a g' Hg' G HP). intros b g'' Hg'' G' HR. apply HQ; [done|by eapply grow_trans|done].
Qed.
Lemma sp_mono {A} (p : prog V A) (P R : A -> gst -> Prop) g : spec p P g -> (forall a g', good g' -> grow g g' -> P a g' -> R a g') -> spec p R g.
Proof. intros Hp HPR Q HQ. apply Hp. intros a g' Hg' G HP. apply HQ; auto. Qed.
Lemma sp_lift {A} (o : outcome A) g : good g -> spec (plift o) (fun a _ => o = Ok a) g.
Proof. intros Hg Q HQ. apply pw_lift. intros a E. apply HQ; [done|apply grow_refl|done]. Qed.
Lemma sp_byteAt k i g : good g -> spec (pbyteAt k i) (fun _ _ => True) g.
Proof. intros Hg Q HQ. apply pw_byteAt. intros a. apply HQ; [done|apply grow_refl|done]. Qed.
Lemma sp_loadN a g : good g -> gD g a -> spec (ploadN a) (fun n g' => wf g' n /\ cond g' (n_id n) a) g.
Proof. intros Hg Ha Q HQ. apply pw_loadN; [done..|]. intros. by apply HQ. Qed.
Lemma sp_loadL a g : good g -> gD g a -> spec (ploadL a) (fun l g' => idb g' (l_id l) /\ cond g' (l_id l) a) g.
Proof. intros Hg Ha Q HQ. apply pw_loadL; [done..|]. intros. by apply HQ. Qed.
Lemma sp_getT g : good g -> spec pgetT (fun t g' => t = s_t (gs g')) g.
Proof. intros Hg Q HQ. apply pw_getT; [done|]. intros. by apply HQ. Qed.
Lemma sp_fuel g : good g -> spec pfuel (fun _ _ => True) g.
Proof. intros Hg Q HQ. apply pw_fuel; [done|]. intros. by apply HQ. Qed.
Lemma sp_makeChan g : good g -> spec pmakeChan (fun _ _ => True) g.
Proof. intros Hg Q HQ. apply pw_makeChan; [done|]. intros. by apply HQ. Qed.
Lemma sp_close c g : good g -> spec (pclose c) (fun _ _ => True) g.
Proof. intros Hg Q HQ. apply pw_close; [done|]. intros. by apply HQ. Qed.
Lemma sp_liveN a g : good g -> gD g a -> spec (pliveN a) (fun _ _ => True) g.
Proof. intros Hg Ha Q HQ. apply pw_liveN; [done..|]. intros. by apply HQ. Qed.
Lemma sp_liveL a g : good g -> gD g a -> spec (pliveL a) (fun _ _ => True) g.
Proof. intros Hg Ha Q HQ. apply pw_liveL; [done..|]. intros. by apply HQ. Qed.
Lemma sp_casN a c g : good g -> gD g a -> spec (pdo (CasChN a c)) (fun _ _ => True) g.
Proof. intros Hg Ha Q HQ. apply pw_casN; [done..|]. intros. by apply HQ. Qed.
Lemma sp_casL a c g : good g -> gD g a -> spec (pdo (CasChL a c)) (fun _ _ => True) g.
Proof. intros Hg Ha Q HQ. apply pw_casL; [done..|]. intros. by apply HQ. Qed.
Lemma sp_setChN a c g : good g -> gD g a -> spec (psetMutateChN a c) (fun _ _ => True) g.
Proof. intros Hg Ha Q HQ. apply pw_setChN; [done..|]. intros. by apply HQ. Qed.
Lemma sp_setChL a c g : good g -> gD g a -> spec (psetMutateChL a c) (fun _ _ => True) g.
Proof. intros Hg Ha Q HQ. apply pw_setChL; [done..|]. intros. by apply HQ. Qed.
Lemma sp_putT t g : good g -> gD g (t_root t) -> t_oldmax t = om g -> mx g <= t_max t -> spec (pputT t) (fun _ g' => s_t (gs g') = t) g.
Proof. intros Hg A1 A2 A3 Q HQ. apply pw_putT; [done..|]. intros. by apply HQ. Qed.
Lemma sp_storeN a n g : good g -> gW g a -> wf g n -> spec (pstoreN a n) (fun _ _ => True) g.
Proof. intros Hg A1 A2 Q HQ. apply pw_storeN; [done..|]. intros. by apply HQ. Qed.
Lemma sp_storeL a n g : good g -> gW g a -> idb g (l_id n) -> spec (pstoreL a n) (fun _ _ => True) g.
Proof. intros Hg A1 A2 Q HQ. apply pw_storeL; [done..|]. intros. by apply HQ. Qed.
Lemma sp_allocN n g : good g -> wf g n -> spec (pallocN n) (fun a g' => gW g' a) g.
Proof. intros Hg A1 Q HQ. apply pw_allocN; [done..|]. intros. by apply HQ. Qed.
Lemma sp_allocL n g : good g -> idb g (l_id n) -> spec (pallocL n) (fun a g' => gW g' a) g.
Proof. intros Hg A1 Q HQ. apply pw_allocL; [done..|]. intros. by apply HQ. Qed.

Ltac leafrule := lazymatch goal with
  | |- spec (pret _) _ _ => apply sp_ret; [side|]
  | |- spec ppanic _ _ => apply sp_panic
  | |- spec pnofuel _ _ => apply sp_nofuel
  | |- spec (plift _) _ _ => apply sp_lift; side
  | |- spec (pbyteAt _ _) _ _ => apply sp_byteAt; side
  | |- spec (ploadN _) _ _ => apply sp_loadN; side
  | |- spec (ploadL _) _ _ => apply sp_loadL; side
  | |- spec pgetT _ _ => apply sp_getT; side
  | |- spec pfuel _ _ => apply sp_fuel; side
  | |- spec pmakeChan _ _ => apply sp_makeChan; side
  | |- spec (pclose _) _ _ => apply sp_close; side
  | |- spec (pliveN _) _ _ => apply sp_liveN; side
  | |- spec (pliveL _) _ _ => apply sp_liveL; side
  | |- spec (pdo (CasChN _ _)) _ _ => apply sp_casN; side
  | |- spec (pdo (CasChL _ _)) _ _ => apply sp_casL; side
  | |- spec (psetMutateChN _ _) _ _ => apply sp_setChN; side
  | |- spec (psetMutateChL _ _) _ _ => apply sp_setChL; side
  | |- spec (pstoreN _ _) _ _ => apply sp_storeN; [side|side|try side]
  | |- spec (pstoreL _ _) _ _ => apply sp_storeL; [side|side|try side]
  | |- spec (pallocN _) _ _ => apply sp_allocN; [side|try side]
  | |- spec (pallocL _) _ _ => apply sp_allocL; [side|try side]
  end.
Ltac clear_true := repeat match goal with Hx : True |- _ => clear Hx | Hx : unit |- _ => clear Hx end.
Ltac intro1 := intros; cbv beta in *; repeat match goal with Hx : _ /\ _ |- _ => destruct Hx end; tr; clear_true.
Lemma sp_getMutateChN a g : good g -> gD g a -> spec (pgetMutateChN a) (fun _ _ => True) g.
Proof.
  intros Hg Ha. unfold pgetMutateChN. eapply sp_bind; [leafrule|]. intro1. destruct (n_ch _); [leafrule; done|].
  eapply sp_bind; [leafrule|]. intro1. leafrule.
Qed.
Lemma sp_getMutateChL a g : good g -> gD g a -> spec (pgetMutateChL a) (fun _ _ => True) g.
Proof.
  intros Hg Ha. unfold pgetMutateChL. eapply sp_bind; [leafrule|]. intro1. destruct (l_ch _); [leafrule; done|].
  eapply sp_bind; [leafrule|]. intro1. leafrule.
Qed.
Lemma sp_nextId g : good g -> spec pnextId (fun i g' => idb g' i) g.
Proof.
  intros Hg. unfold pnextId. eapply sp_bind; [leafrule|]. intros t g1 Hg1 G1 ->. tr.
  eapply sp_bind; [apply sp_putT; [side|apply (gd_root _ Hg1)|done|cbn; lia]|]. intros ? g2 Hg2 G2 E. leafrule. unfold idb. rewrite E. cbn. lia.
Qed.
Lemma sp_addTracked c g : good g -> spec (paddTracked c) (fun _ _ => True) g.
Proof.
  intros Hg. unfold paddTracked. eapply sp_bind; [leafrule|]. intros t g1 Hg1 G1 ->. eapply sp_mono; [apply sp_putT; [done|apply (gd_root _ Hg1)|done|done]|]. done.
Qed.
Lemma sp_trackN a g : good g -> gD g a -> spec (ptrackN a) (fun _ _ => True) g.
Proof.
  intros Hg Ha. unfold ptrackN. eapply sp_bind; [leafrule|]. intro1. eapply sp_bind; [leafrule|]. intro1. destruct (_ && _); [|leafrule; done].
  eapply sp_bind; [apply sp_getMutateChN; side|]. intro1. eapply sp_bind; [apply sp_addTracked; side|]. intro1. eapply sp_bind; [leafrule|]. intro1. leafrule.
Qed.
Lemma sp_trackL a g : good g -> gD g a -> spec (ptrackL a) (fun _ _ => True) g.
Proof.
  intros Hg Ha. unfold ptrackL. eapply sp_bind; [leafrule|]. intro1. eapply sp_bind; [leafrule|]. intro1. destruct (_ && _); [|leafrule; done].
  eapply sp_bind; [apply sp_getMutateChL; side|]. intro1. eapply sp_bind; [apply sp_addTracked; side|]. intro1. eapply sp_bind; [leafrule|]. intro1. leafrule.
Qed.
Lemma sp_trackOptL o g : good g -> oD g o -> spec (ptrackOptL o) (fun _ _ => True) g.
Proof. intros Hg Ho. destruct o; cbn [ptrackOptL]; [by apply sp_trackL|leafrule; done]. Qed.
Lemma sp_trackAllN l g : good g -> Forall (gD g) l -> spec (ptrackAllN l) (fun _ _ => True) g.
Proof.
  revert g. induction l as [|a l IH]; intros g Hg Hl; cbn [ptrackAllN]; [leafrule; done|]. apply Forall_cons in Hl as [Ha Hl].
  eapply sp_bind; [by apply sp_trackN|]. intros _ g' Hg' G _. apply IH; [done|]. eapply Forall_impl; [exact Hl|]. intros x. apply G.
Qed.
Lemma sp_cloneN a b g : good g -> gD g a -> spec (pcloneN a b) (fun a' g' => gW g' a') g.
Proof.
  intros Hg Ha. unfold pcloneN. eapply (sp_bind _ _ (fun _ _ => True)).
  { destruct b; [|leafrule; done]. eapply sp_bind; [by apply sp_getMutateChN|]. intro1. leafrule. done. }
  intro1. eapply sp_bind; [leafrule|]. intro1. leafrule.
Qed.
Lemma sp_cloneL a b g : good g -> gD g a -> spec (pcloneL a b) (fun a' g' => gW g' a') g.
Proof.
  intros Hg Ha. unfold pcloneL. eapply (sp_bind _ _ (fun _ _ => True)).
  { destruct b; [|leafrule; done]. eapply sp_bind; [by apply sp_getMutateChL|]. intro1. leafrule. done. }
  intro1. eapply sp_bind; [leafrule|]. intro1. leafrule.
Qed.
Lemma sp_writeNode a b g : good g -> gD g a -> spec (pwriteNode a b) (fun a' g' => gW g' a') g.
Proof.
  intros Hg Ha. unfold pwriteNode. eapply (sp_bind _ _ (fun _ _ => True)).
  { destruct b; [|leafrule; done]. eapply sp_bind; [by apply sp_trackN|]. intro1. eapply sp_bind; [leafrule|]. intro1. apply sp_trackOptL; side. }
  intro1. eapply sp_bind; [leafrule|]. intro1. eapply sp_bind; [leafrule|]. intros t g2 Hg2 G ->. destruct (Nat.ltb _ _) eqn:El.
  { tr. leafrule. side. }
  tr. eapply sp_bind; [apply sp_cloneN; side|]. intro1. eapply sp_bind; [apply sp_nextId; side|]. intro1. eapply sp_bind; [leafrule|]. intro1.
  eapply sp_bind; [leafrule|]. intro1. leafrule. side.
Qed.
Lemma sp_writeLeaf a b g : good g -> gD g a -> spec (pwriteLeaf a b) (fun a' g' => gW g' a') g.
Proof.
  intros Hg Ha. unfold pwriteLeaf. eapply (sp_bind _ _ (fun _ _ => True)).
  { destruct b; [|leafrule; done]. by apply sp_trackL. }
  intro1. eapply sp_bind; [leafrule|]. intro1. eapply sp_bind; [leafrule|]. intros t g2 Hg2 G ->. destruct (Nat.ltb _ _) eqn:El.
  { tr. leafrule. side. }
  tr. eapply sp_bind; [apply sp_cloneL; side|]. intro1. eapply sp_bind; [apply sp_nextId; side|]. intro1. eapply sp_bind; [leafrule|]. intro1.
  eapply sp_bind; [leafrule|]. intro1. leafrule. side.
Qed.
Lemma sp_allocNode k g : good g -> spec (pallocNode k) (fun a g' => gW g' a) g.
Proof. intros Hg. unfold pallocNode. eapply sp_bind; [apply sp_nextId; side|]. intro1. leafrule. by apply wf_zero. Qed.
Lemma sp_allocLeaf g : good g -> spec pallocLeaf (fun a g' => gW g' a) g.
Proof. intros Hg. unfold pallocLeaf. eapply sp_bind; [apply sp_nextId; side|]. intro1. leafrule. Qed.
Lemma sp_updN a f g : good g -> gW g a -> (forall g' n n', good g' -> grow g g' -> wf g' n -> f n = Ok n' -> wf g' n') -> spec (pupdN a f) (fun _ _ => True) g.
Proof.
  intros Hg Ha Hf. unfold pupdN. eapply sp_bind; [leafrule|]. intros n g1 Hg1 G1 [W1 _]. eapply sp_bind; [leafrule|]. intros n' g2 Hg2 G2 E.
  apply sp_storeN; [done|by apply G2, G1|]. eapply (Hf g2 n n'); [done|by eapply grow_trans|by eapply wf_grow|done].
Qed.
Lemma sp_updK a f g : good g -> gW g a -> (forall g' n n', good g' -> grow g g' -> wf g' n -> f n = Ok n' -> keeps (oD g') n n') -> spec (pupdN a f) (fun _ _ => True) g.
Proof. intros Hg Ha Hf. apply sp_updN; [done..|]. intros gg nn nn' Hgg G W E. eapply wf_keeps; [done|]. by apply Hf. Qed.
Lemma sp_setNodeLeaf a l g : good g -> gW g a -> oD g l -> spec (psetNodeLeaf a l) (fun _ _ => True) g.
Proof. intros Hg Ha Hl. apply sp_updN; [done..|]. intros gg nn nn' Hgg G W [= <-]. apply wf_set_leaf; [done|]. by eapply oD_grow. Qed.
Lemma sp_setChild a i c g : good g -> gW g a -> oD g c -> spec (psetChild a i c) (fun _ _ => True) g.
Proof. intros Hg Ha Hl. apply sp_updK; [done..|]. intros gg nn nn' Hgg G W E. eapply kp_setChildN; [done|]. by eapply oD_grow. Qed.
Lemma sp_setKV l k v g : good g -> gW g l -> spec (psetKV l k v) (fun _ _ => True) g.
Proof. intros Hg Hl. unfold psetKV. eapply sp_bind; [leafrule|]. intro1. leafrule. Qed.
Lemma sp_copyPartial a p g : good g -> gW g a -> spec (pcopyPartial a p) (fun _ _ => True) g.
Proof. intros Hg Ha. apply sp_updK; [done..|]. intros gg nn nn' Hgg G W [= <-]. done. Qed.
Lemma sp_makeLeaf k v g : good g -> spec (pmakeLeaf k v) (fun a g' => gW g' a) g.
Proof.
  intros Hg. unfold pmakeLeaf. eapply sp_bind; [apply sp_allocLeaf; side|]. intro1. eapply sp_bind; [apply sp_nextId; side|]. intro1. eapply sp_bind; [leafrule|]. intro1.
  eapply sp_bind; [leafrule|]. intro1. eapply sp_bind; [apply sp_allocNode; side|]. intro1. eapply sp_bind; [apply sp_setNodeLeaf; side|]. intro1.
  eapply sp_bind; [apply sp_nextId; side|]. intro1. eapply sp_bind; [apply sp_updN; [side..|]|].
  { intros gg nn nn' Hgg G W [= <-]. tr. side. }
  intro1. leafrule. side.
Qed.
Lemma sp_moveLeaf a o g : good g -> gW g a -> oD g o -> spec (pmoveLeaf a o) (fun _ _ => True) g.
Proof.
  intros Hg Ha Ho. unfold pmoveLeaf. destruct o as [l|]; [|leafrule; done]. cbn in Ho. eapply sp_bind; [apply sp_writeLeaf; side|]. intro1. apply sp_setNodeLeaf; side.
Qed.
Lemma sp_addChild256 a c ch g : good g -> gW g a -> gD g ch -> spec (paddChild256 a c ch) (fun a' g' => gW g' a') g.
Proof.
  intros Hg Ha Hc. unfold paddChild256. eapply sp_bind; [apply sp_updK; [side..|]|]; [|intro1; leafrule; side].
  intros gg nn nn' Hgg G W E. eapply kp_insert256; [exact E|]. by apply G.
Qed.
Lemma sp_addChild48 a c ch g : good g -> gW g a -> gD g ch -> spec (paddChild48 a c ch) (fun a' g' => gW g' a') g.
Proof.
  intros Hg Ha Hc. unfold paddChild48. eapply sp_bind; [leafrule|]. intros n g1 Hg1 G1 [W1 _]. tr. destruct (Nat.ltb _ _).
  - eapply sp_bind; [apply sp_updK; [side..|]|]; [|intro1; leafrule; side]. intros gg nn nn' Hgg G W E. eapply kp_insert48; [exact E|by apply G].
  - eapply sp_bind; [apply sp_allocNode; side|]. intro1. eapply sp_bind; [eapply sp_moveLeaf; side|]. intro1.
    eapply sp_bind; [apply sp_updK; [side..|]|].
    { intros gg nn nn' Hgg G W E. tr. eapply kp_fill256; [exact Logic.I|exact E|by apply wf_fD]. }
    intro1. eapply sp_bind; [apply sp_updK; [side..|]|]. { intros gg nn nn' Hgg G W E. by eapply kp_copyHeader. }
    intro1. apply sp_addChild256; side.
Qed.
Lemma sp_addChild16 a c ch g : good g -> gW g a -> gD g ch -> spec (paddChild16 a c ch) (fun a' g' => gW g' a') g.
Proof.
  intros Hg Ha Hc. unfold paddChild16. eapply sp_bind; [leafrule|]. intros n g1 Hg1 G1 [W1 _]. tr. destruct (Nat.ltb _ _).
  - eapply sp_bind; [apply sp_updK; [side..|]|]; [|intro1; leafrule; side]. intros gg nn nn' Hgg G W E. eapply kp_insertSorted; [exact E|by apply G].
  - eapply sp_bind; [apply sp_allocNode; side|]. intro1. eapply sp_bind; [eapply sp_moveLeaf; side|]. intro1.
    eapply sp_bind; [apply sp_updK; [side..|]|].
    { intros gg nn nn' Hgg G W [= <-]. tr. apply kp_children. intros HF. apply F_go_copy; [done|]. apply Forall_take. by apply wf_fD. }
    intro1. eapply sp_bind; [apply sp_updK; [side..|]|]. { intros gg nn nn' Hgg G W E. by eapply kp_fill48. }
    intro1. eapply sp_bind; [apply sp_updK; [side..|]|]. { intros gg nn nn' Hgg G W E. by eapply kp_copyHeader. }
    intro1. apply sp_addChild48; side.
Qed.
Lemma sp_addChild4 a c ch g : good g -> gW g a -> gD g ch -> spec (paddChild4 a c ch) (fun a' g' => gW g' a') g.
Proof.
  intros Hg Ha Hc. unfold paddChild4. eapply sp_bind; [leafrule|]. intros n g1 Hg1 G1 [W1 _]. tr. destruct (Nat.ltb _ _).
  - eapply sp_bind; [apply sp_updK; [side..|]|]; [|intro1; leafrule; side]. intros gg nn nn' Hgg G W E. eapply kp_insertSorted; [exact E|by apply G].
  - eapply sp_bind; [apply sp_allocNode; side|]. intro1. eapply sp_bind; [eapply sp_moveLeaf; side|]. intro1.
    eapply sp_bind; [apply sp_updK; [side..|]|].
    { intros gg nn nn' Hgg G W [= <-]. tr. apply kp_children. intros HF. apply F_go_copy; [done|]. apply Forall_take. by apply wf_fD. }
    intro1. eapply sp_bind; [apply sp_updK; [side..|]|]. { intros gg nn nn' Hgg G W [= <-]. done. }
    intro1. eapply sp_bind; [apply sp_updK; [side..|]|]. { intros gg nn nn' Hgg G W E. by eapply kp_copyHeader. }
    intro1. apply sp_addChild16; side.
Qed.
Lemma sp_addChild a c ch g : good g -> gW g a -> gD g ch -> spec (paddChild a c ch) (fun a' g' => gW g' a') g.
Proof.
  intros Hg Ha Hc. unfold paddChild. eapply sp_bind; [leafrule|]. intro1.
  destruct (n_kind _); [apply sp_addChild4|apply sp_addChild16|apply sp_addChild48|apply sp_addChild256]; side.
Qed.

Lemma pw_spec {A} (p : prog V A) P Q g : spec p P g -> ask P g Q -> pw p Q g.
Proof. intros Hs. apply Hs. Qed.
Lemma ask_end {A} (P Q : A -> gst -> Prop) g0 g a : ask P g0 Q -> since g0 g -> good g -> P a g -> Q a g.
Proof. intros Ha Hs Hg HP. by apply Ha. Qed.
Lemma use_spec {A} (p : prog V A) (R P Q : A -> gst -> Prop) g0 g : ask P g0 Q -> since g0 g -> spec p R g -> (forall a g', good g' -> grow g g' -> R a g' -> P a g') -> pw p Q g.
Proof. intros Ha Hs Hsp HRP. apply Hsp. intros a g' Hg' G HR. apply Ha; [done|by eapply grow_trans|auto]. Qed.
Ltac rule := lazymatch goal with
  | |- spec (pwriteNode _ _) _ _ => apply sp_writeNode; side
  | |- spec (pwriteLeaf _ _) _ _ => apply sp_writeLeaf; side
  | |- spec (ptrackN _) _ _ => apply sp_trackN; side
  | |- spec (ptrackL _) _ _ => apply sp_trackL; side
  | |- spec (ptrackOptL _) _ _ => apply sp_trackOptL; side
  | |- spec pnextId _ _ => apply sp_nextId; side
  | |- spec (pallocNode _) _ _ => apply sp_allocNode; side
  | |- spec pallocLeaf _ _ => apply sp_allocLeaf; side
  | |- spec (psetNodeLeaf _ _) _ _ => apply sp_setNodeLeaf; side
  | |- spec (psetChild _ _ _) _ _ => apply sp_setChild; [side|side|side]
  | |- spec (psetKV _ _ _) _ _ => apply sp_setKV; side
  | |- spec (pcopyPartial _ _) _ _ => apply sp_copyPartial; side
  | |- spec (pmakeLeaf _ _) _ _ => apply sp_makeLeaf; side
  | |- spec (pmoveLeaf _ _) _ _ => apply sp_moveLeaf; side
  | |- spec (paddChild _ _ _) _ _ => apply sp_addChild; side
  | |- spec (pupdN _ _) _ _ => apply sp_updK; [side|side|]
  | |- _ => leafrule
  end.
Ltac fin := match goal with HQ : ask _ _ ?Q |- ?Q _ _ => eapply (ask_end _ _ _ _ _ HQ); [side|side|cbv beta] end.
Ltac step := lazymatch goal with
  | |- pw (pbind _ _) _ _ => apply pw_bind
  | |- pw (pret _) _ _ => apply pw_ret
  | |- pw ppanic _ _ => apply pw_panic
  | |- pw pnofuel _ _ => apply pw_nofuel
  | |- pw (if ?b then _ else _) _ _ => destruct b
  | |- pw (match ?x with _ => _ end) _ _ => destruct x eqn:?
  | |- pw _ _ _ => eapply pw_spec; [rule|unfold ask; intro1]
  | |- ask _ _ _ => unfold ask; intro1
  end.
Ltac start := let Q := fresh "Q" in let HQ := fresh "HQ" in intros Q HQ; match type of HQ with ask _ ?g _ => assert (since g g) by apply grow_refl end.
Ltac kp_simple := intros ? ? ? ? ? ? [= <-]; done.
Lemma D_stale g n c l n' : removeSorted n c = Ok (l, n') -> wf g n -> Forall (gD g) l.
Proof.
  unfold removeSorted. destruct (Nat.ltb _ _); [done|]. intros [= <- _] W. apply Forall_forall. intros x Hx. apply elem_of_list_omap in Hx as (o & Ho & Ex). simplify_eq/=.
  apply elem_of_list_lookup in Ho as (i & Hi). rewrite lookup_drop in Hi. pose proof (F_shift (oD g) Logic.I _ 0 (sort_Search (n_nch n) (fun i => c <=? n_keys n !!! i)) (seq 0 (n_nch n)) (wf_fD _ _ W)) as F.
  rewrite Forall_lookup in F. by apply (F _ _ Hi).
Qed.
Lemma sp_removeChild4 a c g : good g -> gW g a -> spec (premoveChild4 a c) (fun a' g' => gW g' a') g.
Proof.
  intros Hg Ha. start. unfold premoveChild4. step. step. step. step. destruct a1 as [stale n1].
  match goal with E : removeSorted ?n _ = _, W : wf ?g ?n |- _ => pose proof (D_stale _ _ _ _ _ E W) as St; assert (wf g n1) by (eapply wf_keeps; [exact W|]; eapply kp_removeSorted; [exact Logic.I|exact E]) end.
  step. eapply pw_spec; [by apply sp_trackAllN|]. step. repeat step; try (fin; side).
Qed.
Lemma sp_removeChild16 a c g : good g -> gW g a -> spec (premoveChild16 a c) (fun a' g' => gW g' a') g.
Proof.
  intros Hg Ha. start. unfold premoveChild16. step. step. step. step. destruct a1 as [stale n1].
  match goal with E : removeSorted ?n _ = _, W : wf ?g ?n |- _ => pose proof (D_stale _ _ _ _ _ E W) as St; assert (wf g n1) by (eapply wf_keeps; [exact W|]; eapply kp_removeSorted; [exact Logic.I|exact E]) end.
  step. eapply pw_spec; [by apply sp_trackAllN|]. step. repeat step; try (fin; side).
  - intros gg nn nn' Hgg G W E. by eapply kp_copyHeader.
  - kp_simple.
  - intros gg nn nn' Hgg G W [= <-]. tr. apply kp_children. intros HF. apply F_go_copy; [done|]. apply Forall_take. by apply wf_fD.
Qed.
Lemma sp_removeChild48 a c g : good g -> gW g a -> spec (premoveChild48 a c) (fun a' g' => gW g' a') g.
Proof.
  intros Hg Ha. start. unfold premoveChild48. repeat step; try (fin; side); intros gg nn nn' Hgg G W E.
  all: try (by eapply kp_setKeyAtIdx). all: try (eapply kp_setChildN; [exact E|exact Logic.I]). all: try (by eapply kp_copyHeader). all: try (by injection E as <-).
  all: tr; eapply kp_fill16; [exact Logic.I|exact E|by apply wf_fD].
Qed.
Lemma sp_removeChild256 a c g : good g -> gW g a -> spec (premoveChild256 a c) (fun a' g' => gW g' a') g.
Proof.
  intros Hg Ha. start. unfold premoveChild256. repeat step; try (fin; side); intros gg nn nn' Hgg G W E.
  all: try (eapply kp_setChildN; [exact E|exact Logic.I]). all: try (by eapply kp_copyHeader). all: try (by injection E as <-).
  all: tr; eapply kp_fill48from256; [exact Logic.I|exact E|by apply wf_fD].
Qed.
Lemma sp_removeChild a c g : good g -> gW g a -> spec (premoveChild a c) (fun a' g' => gW g' a') g.
Proof.
  intros Hg Ha. unfold premoveChild. eapply sp_bind; [leafrule|]. intro1.
  destruct (n_kind _); [apply sp_removeChild4|apply sp_removeChild16|apply sp_removeChild48|apply sp_removeChild256]; side.
Qed.
Lemma oD_minChild g n c : wf g n -> minChild n = Ok c -> oD g c.
Proof.
  intros Hb. apply wf_fD in Hb. unfold minChild. assert (H256 : forall l, Forall (oD g) l -> oD g (first_child256 l)).
  { induction l as [|[x|] l IH]; cbn; intros HF; [done|by inversion HF|]. inversion HF; auto. }
  destruct (n_kind n).
  1,2: intros E; eapply (P_getChild (oD g)); [exact Logic.I|exact E|done].
  - destruct (getKeyAtIdx _ _) as [i| |]; [|done..]. cbn. destruct (Nat.ltb _ _); intros E; [eapply (P_getChild (oD g)); [exact Logic.I|exact E|done]|by injection E as <-].
  - intros [= <-]. by apply H256.
Qed.
Lemma sp_minimum f o g : good g -> oD g o -> spec (pminimum f o) (fun l g' => oD g' l) g.
Proof.
  revert o g. induction f as [|f IH]; intros o g Hg Ho; cbn [pminimum]; [leafrule|]. destruct o as [a|]; [|leafrule; done]. cbn in Ho. start.
  repeat step; try (fin; side).
  match goal with E : minChild ?n = Ok _, W : wf _ ?n |- _ => pose proof (oD_minChild _ _ _ W E) end.
  eapply pw_spec; [apply IH; side|]. step. fin. side.
Qed.
Lemma sp_prefixMismatch a n key d g : good g -> gD g a -> spec (pprefixMismatch a n key d) (fun _ _ => True) g.
Proof.
  intros Hg Ha. start. unfold pprefixMismatch. repeat step; try (fin; done).
  eapply pw_spec; [apply sp_minimum; side|]. step. repeat step; fin; done.
Qed.
Ltac rule2 := lazymatch goal with
  | |- spec (pminimum _ _) _ _ => apply sp_minimum; side
  | |- spec (pprefixMismatch _ _ _ _) _ _ => apply sp_prefixMismatch; side
  | |- spec (premoveChild _ _) _ _ => apply sp_removeChild; side
  | |- spec (pupdN _ _) _ _ => apply sp_updK; [side|side|kp_simple]
  | |- spec (pstoreL _ (setl_val ?x _)) _ _ => apply sp_storeL; [side|side|unfold idb in *; cbn; assumption]
  | |- _ => rule
  end.
Ltac step2 := lazymatch goal with
  | |- pw (pbind _ _) _ _ => apply pw_bind
  | |- pw (pret _) _ _ => apply pw_ret; try (fin; first [done|side])
  | |- pw ppanic _ _ => apply pw_panic
  | |- pw pnofuel _ _ => apply pw_nofuel
  | |- pw (if ?b then _ else _) _ _ => destruct b
  | |- pw (match ?x with _ => _ end) _ _ => destruct x eqn:?
  | |- pw (let x := _ in _) _ _ => cbv zeta
  | |- pw _ _ _ => eapply pw_spec; [rule2|unfold ask; intro1]
  | |- ask _ _ _ => unfold ask; intro1
  end.
Definition post4 (r : addr * V * bool * bool) (g : gst) : Prop := gD g r.1.1.1.
Lemma sp_insert f :
  (forall a key v d g, good g -> gD g a -> spec (precursiveInsert f a key v d) post4 g) /\
  (forall a key v d g, good g -> gD g a -> spec (pinsertInner f a key v d) post4 g).
Proof.
  induction f as [|f [IH1 IH2]]; [split; intros; apply sp_nofuel|]. split; intros a key v d g Hg Ha; cbn [precursiveInsert pinsertInner]; start.
  - repeat step2; try (fin; unfold post4; cbn [fst snd]; side).
    all: eapply pw_spec; [apply IH2; side|]; step2; fin; done.
  - repeat step2; try (fin; unfold post4; cbn [fst snd]; side).
    all: eapply pw_spec; [apply IH1; side|]; unfold ask; intros [[[newc val] mut] old] g2 Hg2 G2 Hin; unfold post4 in Hin; cbn [fst snd] in Hin; tr.
    all: repeat step2; try (fin; unfold post4; cbn [fst snd]; side).
Qed.
Lemma sp_delete f : forall o key d g, good g -> oD g o -> spec (precursiveDelete f o key d) (fun r g' => oD g' r.1.1 /\ match r.1.2 with Some (RL l) => gD g' l | _ => True end) g.
Proof.
  induction f as [|f IH]; intros o key d g Hg Ho; [apply sp_nofuel|]. cbn [precursiveDelete]. start. destruct o as [a|]; [|repeat step2]. cbn [oD] in Ho.
  repeat step2; try (fin; cbn [fst snd]; split; [side|first [done|side]]).
  all: try match goal with E : (if ?b then Some _ else None) = Some _ |- _ => destruct b; [injection E as <-|discriminate E] end.
  all: try (fin; cbn [fst snd]; split; [side|first [done|side]]).
  all: eapply pw_spec; [apply IH; side|]; unfold ask; intros [[newc val] mut] g2 Hg2 G2 [Hin Hv]; cbn [fst snd] in Hin, Hv; destruct newc as [newc|], val as [[xn|xl]|]; cbn [oD] in Hin; tr.
  all: repeat step2; try (fin; cbn [fst snd]; split; [side|first [done|side]]).
Qed.
Lemma sp_installEmptyRoot g : good g -> spec pinstallEmptyRoot (fun _ _ => True) g.
Proof.
  intros Hg. unfold pinstallEmptyRoot. eapply sp_bind; [leafrule|]. intros t g1 Hg1 G1 ->.
  eapply sp_bind; [apply sp_putT; [done|apply (gd_root _ Hg1)|done|cbn; lia]|]. intros ? g2 Hg2 G2 E. cbv beta in E.
  eapply sp_bind; [apply sp_allocL; [done|unfold idb; rewrite E; cbn; lia]|]. intros l g3 Hg3 G3 Wl. cbv beta in Wl. pose proof (gd_W _ Hg3 _ Wl) as Dl.
  assert (Hm : t_max (s_t (gs g1)) + 2 <= mx g3). { pose proof (gr_mx _ _ G3) as Hm. rewrite E in Hm. exact Hm. }
  eapply sp_bind; [apply sp_allocN; [done|]|].
  { split; cbn; [lia| |done]. intros o Ho. apply elem_of_replicate in Ho as [-> _]. done. }
  intros r g4 Hg4 G4 Wr. cbv beta in Wr. eapply sp_bind; [leafrule|]. intros t g5 Hg5 G5 ->. tr. eapply sp_mono; [apply sp_putT; [done|cbn; side|done|done]|done].
Qed.
Lemma sp_putRoot r g : good g -> gD g r -> spec (pbind pgetT (fun t => pputT (set_t_root t r))) (fun _ _ => True) g.
Proof. intros Hg Hr. eapply sp_bind; [leafrule|]. intros t g1 Hg1 G1 ->. tr. eapply sp_mono; [apply sp_putT; [done|cbn; side|done|done]|done]. Qed.
Lemma sp_txnInsert k v g : good g -> spec (ptxnInsert k v) (fun _ _ => True) g.
Proof.
  intros Hg. unfold ptxnInsert. cbv zeta. eapply sp_bind; [leafrule|]. intros t g1 Hg1 G1 ->. tr. eapply sp_bind; [apply sp_insert; [side|apply (gd_root _ Hg1)]|].
  intros [[[newc val] mut] old] g2 Hg2 G2 Hin. unfold post4 in Hin. cbn [fst snd] in Hin. tr. eapply sp_bind; [leafrule|]. intros t g3 Hg3 G3 ->. tr.
  eapply sp_bind; [apply sp_putT; [side|destruct old; cbn; side|by destruct old|by destruct old]|]. intro1. leafrule. done.
Qed.
Lemma sp_txnDelete k g : good g -> spec (ptxnDelete k) (fun _ _ => True) g.
Proof.
  intros Hg. unfold ptxnDelete. cbv zeta. eapply sp_bind; [leafrule|]. intros t g1 Hg1 G1 ->. tr. eapply sp_bind; [apply sp_delete; [side|apply (gd_root _ Hg1)]|].
  intros [[newc val] mut] g2 Hg2 G2 [Hin Hv]. cbn [fst snd] in Hin, Hv. tr.
  assert (Hv' : match val with Some (RL l) => gD g2 l | _ => True end) by done. clear Hv.
  eapply (sp_bind _ _ (fun _ _ => True)). { destruct newc as [r|]; [by apply sp_putRoot|by apply sp_installEmptyRoot]. }
  intros ? g3 Hg3 G3 _. destruct val as [[xn|xl]|]; tr.
  3: leafrule; done.
  all: eapply sp_bind; [leafrule|]; intros t g4 Hg4 G4 ->; tr; eapply sp_bind; [apply sp_trackN; [side|apply (gd_root _ Hg4)]|]; intro1.
  all: eapply sp_bind; [leafrule|]; intros t g5 Hg5 G5 ->; tr; eapply sp_bind; [apply sp_putT; [side|apply (gd_root _ Hg5)|done|done]|]; intro1.
  - leafrule. done.
  - eapply sp_bind; [leafrule|]. intro1. leafrule. done.
Qed.
Lemma sp_deletePrefix f : forall o key d g, good g -> oD g o -> spec (pdeletePrefix f o key d) (fun r g' => oD g' r.1) g.
Proof.
  induction f as [|f IH]; intros o key d g Hg Ho; [apply sp_nofuel|]. cbn [pdeletePrefix]. destruct o as [a|]; [|leafrule; done]. cbn [oD] in Ho.
  eapply sp_bind; [leafrule|]. intros n g1 Hg1 G1 [Wn _]. tr. destruct (isLeafN n). { start. repeat step2; try (fin; first [done|side]). }
  eapply (sp_bind _ _ (fun _ _ => True)). { start. repeat step2; try (fin; first [done|side]). }
  intro1. eapply (sp_bind _ _ (fun _ _ => True)). { start. repeat step2; try (fin; first [done|side]). }
  intro1. eapply (sp_bind _ _ (fun r g' => fD g' r.1.*2)).
  { match goal with |- spec (?L _ _ _ _) _ _ => enough (forall cs i m nd g, good g -> fD g cs -> fD g m.*2 -> spec (L cs i m nd) (fun r g' => fD g' r.1.*2) g) as HL end.
    { apply HL; [side|by apply wf_fD|constructor]. }
    clear - IH. induction cs as [|[c|] cs IHcs]; intros i m nd g Hg Hcs Hm; [leafrule; done| |].
    2: { apply IHcs; [done| |done]. by inversion Hcs. }
    apply Forall_cons in Hcs as [Hc Hcs]. cbn [oD] in Hc. fold (fD g cs) in Hcs. eapply sp_bind; [apply IH; side|]. intros [newc dl] g2 Hg2 G2 Hn. cbn [fst] in Hn. tr.
    eapply (sp_bind _ _ (fun _ _ => True)). { start. repeat step2; try (fin; first [done|side]). }
    intro1. apply IHcs; [done|done|]. unfold fD. rewrite fmap_app. apply Forall_app. split; [done|]. by repeat constructor. }
  intros [m numDel] g2 Hg2 G2 Hm. cbn [fst] in Hm. tr. eapply sp_bind; [apply sp_writeNode; side|]. intro1. eapply sp_bind; [leafrule|]. intro1. eapply sp_bind; [leafrule|].
  intros [[n' slow] numCh] g3 Hg3 G3 Ec. cbv beta in Ec. tr. eapply sp_bind; [apply sp_storeN; [side|side|]|].
  { eapply wf_keeps; [eapply (wf_keeps g3 _ n'); [eassumption|]|].
    - eapply kp_compact; [exact Logic.I|exact Ec|exact Hm|by apply wf_fD].
    - split; [done|]. split; [done|]. cbn. intros HF. by apply F_clear. }
  intro1. leafrule. cbn. side.
Qed.
Lemma sp_txnDeletePrefix k g : good g -> spec (ptxnDeletePrefix k) (fun _ _ => True) g.
Proof.
  intros Hg. unfold ptxnDeletePrefix. cbv zeta. eapply sp_bind; [leafrule|]. intros t g1 Hg1 G1 ->. pose proof (gd_root _ Hg1) as Hr. tr.
  set (rt := t_root _) in *. clearbody rt. eapply sp_bind; [leafrule|]. intro1. eapply sp_bind; [apply sp_deletePrefix; [side|cbn; side]|].
  intros [newc nd] g2 Hg2 G2 Hin. cbn [fst snd] in Hin. tr.
  eapply (sp_bind _ _ (fun _ _ => True)). { destruct newc as [r|]; [by apply sp_putRoot|by apply sp_installEmptyRoot]. }
  intro1. destruct (Nat.eqb _ _); [leafrule; done|].
  eapply sp_bind; [leafrule|]; intros t g4 Hg4 G4 ->; tr; eapply sp_bind; [apply sp_trackN; [side|apply (gd_root _ Hg4)]|]; intro1.
  eapply sp_bind; [leafrule|]; intros t g5 Hg5 G5 ->; tr; eapply sp_bind; [apply sp_putT; [side|apply (gd_root _ Hg5)|done|done]|]; intro1.
  leafrule. done.
Qed.
Lemma sp_closeT c g : good g -> spec (pclose c) (fun _ g' => s_t (gs g') = s_t (gs g)) g.
Proof.
  intros Hg Q HQ. apply pw_quiet; [done..|]. intros b s2 E. cbn in E. unfold liftH, hcloseIfOpen in E. destruct b.
  case_match; injection E as <-; split_and!; try done; intros; by apply HQ.
Qed.
Lemma sp_closeAll l g : good g -> spec (pcloseAll l) (fun _ g' => s_t (gs g') = s_t (gs g)) g.
Proof.
  revert g. induction l as [|c l IH]; intros g Hg; cbn [pcloseAll]; [leafrule; done|]. eapply sp_bind; [by apply sp_closeT|]. intros ? g1 Hg1 G1 E1. cbv beta in E1.
  rewrite <- E1. by apply IH.
Qed.
Lemma sp_getT2 g : good g -> spec pgetT (fun t g' => t = s_t (gs g) /\ s_t (gs g') = s_t (gs g)) g.
Proof. intros Hg Q HQ. apply pw_quiet; [done..|]. intros b s2 [= <- <-]. split_and!; [done..|]. intros. by apply HQ. Qed.
Lemma sp_notify g : good g -> spec pnotify (fun _ g' => mx g' = mx g) g.
Proof.
  intros Hg. unfold pnotify, pslowNotify. eapply sp_bind; [by apply sp_getT2|]. intros t g1 Hg1 G1 [-> E1]. destruct (t_track _); [|leafrule; by rewrite E1].
  eapply sp_bind; [by apply sp_getT2|]. intros t g2 Hg2 G2 [-> E2]. eapply sp_bind; [apply sp_closeAll; side|]. intros ? g3 Hg3 G3 E. cbv beta in E. rewrite <- E2, <- E.
  eapply sp_mono; [apply sp_putT; [done|apply (gd_root _ Hg3)|done|done]|]. intros ? g4 _ _ E4. cbv beta in E4. rewrite E4. cbn. by rewrite E, E2, E1.
Qed.
(** A tree that the goroutine may hand out: its root is reached, and no id is above its maximum *)
Definition hands (g : gst) (tr : rtree) : Prop := gD g (r_root tr) /\ mx g <= r_max tr.
Lemma sp_commit g : good g -> spec pcommit (fun tr g' => hands g' tr) g.
Proof.
  intros Hg. unfold pcommit. eapply sp_bind; [by apply sp_getT2|]. intros t g1 Hg1 G1 [-> E1]. pose proof (gd_root _ Hg1) as Hr. rewrite E1 in Hr.
  eapply (sp_bind _ _ (fun _ g' => mx g' = mx g)).
  { rewrite <- E1. destruct (t_track _); [by apply sp_notify|by leafrule]. }
  intros ? g2 Hg2 G2 E2. cbv beta in E2. leafrule. split; [|by cbn; rewrite E2]. cbn. by apply G2.
Qed.
Definition isPut {B} (c : cmd V B) : bool := match c with PutT _ => true | _ => false end.
Fixpoint noPut {A} (p : prog V A) : Prop := match p with PRet _ => True | Do c k => isPut c = false /\ forall b, noPut (k b) end.
Lemma sem_t {B} (c : cmd V B) s b s2 : isPut c = false -> sem c s = (Ok b, s2) -> s_t s2 = s_t s.
Proof.
  intros Hc E. destruct s as [h t], c; try discriminate Hc; cbn in E;
  unfold loadN, loadL, storeN, storeL, liftH, getT, putT, hloadN, hloadL, hstoreN, hstoreL, hallocN, hallocL, hmakeChan, hcloseIfOpen, casChN, casChL,
    setMutateChN, setMutateChL, bind, ret, hloadN, hloadL, hstoreN, hstoreL in E; cbn in E;
  simplify_eq/=; repeat (case_match; simplify_eq/=); done.
Qed.
Lemma pw_noPut {A} (p : prog V A) (Q : A -> gst -> Prop) g : noPut p -> pw p Q g -> pw p (fun a g' => Q a g' /\ s_t (gs g') = s_t (gs g)) g.
Proof.
  revert g. induction p as [o|B c k IH]; intros g Hn Hp; [by destruct o|]. destruct Hn as [Hc Hn]. cbn [pw] in *. destruct Hp as [Hm Hp]. split; [done|].
  intros b s2 E. destruct (Hp b s2 E) as (g2 & E2 & Hg2 & Gu & HR). exists g2. split_and!; [done..|]. intros g3 R. eapply pw_mono; [by apply IH, HR|].
  intros a g' [HQ Et]. split; [done|]. rewrite Et, (ry_t _ _ R), E2. by eapply sem_t.
Qed.
Lemma sp_noPut {A} (p : prog V A) P g : noPut p -> spec p P g -> spec p (fun a g' => P a g' /\ s_t (gs g') = s_t (gs g)) g.
Proof.
  intros Hn Hs Q HQ. eapply pw_mono; [apply pw_noPut; [done|]; apply (Hs (fun a g' => good g' /\ grow g g' /\ P a g')); by intros ????|].
  intros a g' [(Hg' & G & HP) E]. by apply HQ.
Qed.
Lemma sp_newTxn tr g : good g -> gD g (r_root tr) -> om g = r_max tr -> mx g = r_max tr -> spec (pnewTxn tr) (fun _ _ => True) g.
Proof.
  intros Hg Hr Eo Em. unfold pnewTxn. eapply sp_bind; [apply sp_noPut; [|by apply sp_cloneN]|].
  { cbn. split; [done|]. intros n. destruct (n_ch n); cbn; repeat (split; [done|intros]); done. }
  intros r g1 Hg1 G1 [Wr E]. eapply sp_mono; [apply sp_putT; [done|cbn; by apply gW_D|cbn; by rewrite E|cbn; rewrite E, Em; lia]|done].
Qed.

Lemma sp_scan key chs g : good g -> fD g chs -> spec (pscanChildren key chs) (fun o g' => oD g' o) g.
Proof.
  revert g. induction chs as [|[c|] chs IH]; intros g Hg Hc; cbn [pscanChildren]; [leafrule; done| |].
  2: { apply IH; [done|]. by inversion Hc. }
  apply Forall_cons in Hc as [Hc Hcs]. cbn [oD] in Hc. fold (fD g chs) in Hcs. start. repeat step2.
  all: eapply pw_spec; [apply IH; side|]; step2; fin; side.
Qed.
Lemma sp_ownLeaf key n g : good g -> wf g n -> spec (pownLeaf key n) (fun o g' => oD g' o) g.
Proof. intros Hg W. start. unfold pownLeaf. repeat step2. destruct (leafMatches _ _); fin; side. Qed.
Definition srD (g : gst) (r : sres) : Prop := match r with Found la => gD g la | Missing a => gD g a end.
Lemma sp_searchExit key a n g : good g -> gD g a -> wf g n -> spec (psearchExit key a n) (fun r g' => srD g' r) g.
Proof.
  intros Hg Ha W. unfold psearchExit. eapply sp_bind; [by apply sp_ownLeaf|]. intros [la|] g1 Hg1 G1 Hl; cbv beta in Hl; tr; [by leafrule|].
  eapply sp_bind; [apply sp_scan; side|]. intros [la|] g2 Hg2 G2 Hl2; cbv beta in Hl2; tr; by leafrule.
Qed.
Lemma sp_search f key : forall a d g, good g -> gD g a -> spec (psearch f a key d) (fun r g' => srD g' r) g.
Proof.
  induction f as [|f IH]; intros a d g Hg Ha; [apply sp_nofuel|]. cbn [psearch]. eapply sp_bind; [leafrule|]. intros n g1 Hg1 G1 [W _]. tr.
  eapply (sp_bind _ _ (fun o g' => oD g' o)). { destruct (isLeafN n); [by apply sp_ownLeaf|by leafrule]. }
  intros [la|] g2 Hg2 G2 Hl; cbv beta in Hl; tr; [by leafrule|].
  eapply (sp_bind _ _ (fun _ _ => True)). { destruct (0 <? n_plen n); [eapply sp_mono; [leafrule|done]|by leafrule]. }
  intros pl g3 Hg3 G3 _. tr. destruct (_ && _); [by apply sp_searchExit|]. cbv zeta. destruct (key !! _) as [c|]; [|by apply sp_searchExit].
  eapply sp_bind; [leafrule|]. intros [[ca|] i] g4 Hg4 G4 E; cbv beta in E; tr; cbn [fst]; [|by apply sp_searchExit]. apply IH; side.
Qed.
Lemma sp_getFrom root key g : good g -> gD g root -> spec (pgetFrom root key) (fun _ _ => True) g.
Proof.
  intros Hg Hr. unfold pgetFrom. cbv zeta. eapply sp_bind; [by apply sp_search|]. intros [la|a] g1 Hg1 G1 Hl; cbn in Hl; tr; [|by leafrule].
  eapply sp_bind; [leafrule|]. intro1. by leafrule.
Qed.
End ProgOwn.
