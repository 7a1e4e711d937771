(** The reverse iterator on represented trees. *)
From Verif Require Export ReadLow.
Local Open Scope nat_scope.

Section ReadRev.
Context {V : Type} `{GoZero V}.
Notation art := (art V).

(** ** Previous: what a stack yields *)
Definition Bf (path : bytes) (kv : bytes * V) : bool := hasPrefix (getKey kv.1) path.
Definition Ff (path : bytes) (kv : bytes * V) : bool := bytes_leb (getKey kv.1) (getKey path).
Definition Gf (path : bytes) (kv : bytes * V) : bool := bytes_leb kv.1 path || Nat.eqb (length path) 0.
Definition bfil (f : bytes * V -> bool) (l : list (bytes * V)) : list (bytes * V) := List.filter f l.
Fixpoint gl (path : bytes) (t : art) : list (bytes * V) :=
  match t with Art _ _ lf kids =>
    bfil (Bf path) (lfl lf) ++ concat (reverse (List.map (fun bt => gl path (snd bt)) kids)) ++ bfil (Ff path) (bfil (Gf path) (lfl lf))
  end.
(** A node with its subtree; a node of expandedParents with its leaf; a leaf. *)
Inductive ritem := RT (t : art) | RX (a : addr) (lf : option (addr * bytes * V)) | RF (la : addr) (k : bytes) (v : V).
Definition rent (i : ritem) : option ref := match i with RT t => Some (RN (aroot t)) | RX a _ => Some (RN a) | RF la _ _ => Some (RL la) end.
Definition rfp (i : ritem) : list addr := match i with RT t => fp t | RX a lf => a :: lfa lf | RF la _ _ => [la] end.
Definition ril (path : bytes) (i : ritem) : list (bytes * V) :=
  match i with RT t => gl path t | RX a lf => bfil (Ff path) (bfil (Gf path) (lfl lf)) | RF _ k v => bfil (Ff path) [(k, v)] end.
Definition rok (h : heap V) (exp : list addr) (i : ritem) : Prop :=
  match i with
  | RT t => (exists p, rep h p t) /\ forall x, x ∈ fp t -> x ∉ exp
  | RX a lf => a ∈ exp /\ exists n, h_nodes h !! a = Some n /\ leafrep h (n_leaf n) lf
  | RF la k v => exists l, h_leaves h !! la = Some l /\ l_key l = k /\ l_val l = v
  end.
Definition rils path (is_ : list ritem) : list (bytes * V) := concat (List.map (ril path) is_).
Definition rsz (is_ : list ritem) : nat := length (concat (List.map rfp is_)).
Lemma rils_app path l l' : rils path (l ++ l') = rils path l ++ rils path l'.
Proof. unfold rils. by rewrite List.map_app, concat_app. Qed.
Lemma rsz_app l l' : rsz (l ++ l') = rsz l + rsz l'.
Proof. unfold rsz. by rewrite List.map_app, concat_app, app_length. Qed.
Lemma rsz_RT (kids : list (nat * art)) : rsz (RT <$> kids.*2) = length (kfp kids).
Proof. unfold rsz. f_equal. induction kids as [|[b t] kids IH]; [done|]. cbn. by rewrite IH. Qed.
Lemma rsz_perm l l' : l ≡ₚ l' -> rsz l = rsz l'.
Proof. induction 1; unfold rsz in *; cbn; rewrite ?app_length in *; lia. Qed.
Lemma rils_rev path (kids : list (nat * art)) : rils path (reverse (RT <$> kids.*2)) = concat (reverse (List.map (fun bt => gl path (snd bt)) kids)).
Proof.
  unfold rils. f_equal. induction kids as [|[b t] kids IH]; [done|]. rewrite !fmap_cons. cbn [List.map snd]. rewrite !reverse_cons, List.map_app. by rewrite IH.
Qed.
Definition rlf (path : bytes) (lf : option (addr * bytes * V)) : list ritem :=
  match lf with Some (la, k, v) => if Gf path (k, v) then [RF la k v] else [] | None => [] end.
Lemma ril_rlf path lf : rils path (rlf path lf) = bfil (Ff path) (bfil (Gf path) (lfl lf)).
Proof. destruct lf as [[[la k] v]|]; [|done]. cbn. destruct (Gf path (k, v)); [|done]. unfold rils. cbn. by rewrite app_nil_r. Qed.
Lemma rlf_sz path lf : rsz (rlf path lf) <= length (lfa lf).
Proof. destruct lf as [[[la k] v]|]; cbn; [|done]. destruct (Gf path (k, v)); cbn; lia. Qed.

Lemma prevLoop_spec (h : heap V) path exp fuel : forall is_, Forall (rok h exp) is_ -> rsz is_ < fuel ->
  match rils path is_ with
  | [] => prevLoop fuel h path exp (rent <$> is_) = Ok (None, [])
  | kv :: L => exists is', prevLoop fuel h path exp (rent <$> is_) = Ok (Some (getKey kv.1, kv.2), rent <$> is') /\ Forall (rok h exp) is' /\
                 rsz is' <= rsz is_ /\ rils path is' = L
  end.
Proof.
  induction fuel as [|fuel IH]; intros is_ Hok Hf; [lia|]. destruct is_ as [|i is_]; [done|].
  apply Forall_cons in Hok as [Hi Hok].
  assert (Hgo : forall is2, Forall (rok h exp) is2 -> rsz is2 < rsz (i :: is_) -> rils path is2 = rils path (i :: is_) ->
    match rils path (i :: is_) with
    | [] => prevLoop fuel h path exp (rent <$> is2) = Ok (None, [])
    | kv :: L => exists is', prevLoop fuel h path exp (rent <$> is2) = Ok (Some (getKey kv.1, kv.2), rent <$> is') /\ Forall (rok h exp) is' /\
                   rsz is' <= rsz (i :: is_) /\ rils path is' = L
    end).
  { intros is2 H1 H2 H3. specialize (IH is2 H1 ltac:(lia)). rewrite H3 in IH. destruct (rils path (i :: is_)) as [|kv L]; [done|].
    destruct IH as (is' & E & ? & ? & ?). exists is'. split_and!; [done..|lia|done]. }
  destruct i as [t|a lf|la k v].
  - destruct t as [a pre lf kids]. destruct Hi as [[p Hr] Hd]. apply rep_inv in Hr as (n & Hn & Hlt & He & Hpl & Hlf & Hk1 & Hk2 & Hk3 & Hst & Hkids).
    cbn [prevLoop fmap list_fmap rent aroot]. rewrite Hn. rewrite bool_decide_false by (apply Hd; left). rewrite (kids_ents kids n He).
    set (is2 := reverse (RT <$> kids.*2) ++ rlf path lf ++ is_).
    assert (Es : forall st1, st1 = (rent <$> rlf path lf) ++ (rent <$> is_) -> reverse (ents_of kids.*2) ++ st1 = rent <$> is2).
    { intros st1 ->. unfold is2. rewrite !fmap_app, fmap_reverse. f_equal. f_equal. unfold ents_of. rewrite <- (list_fmap_compose RT rent). done. }
    assert (H1 : Forall (rok h exp) is2).
    { unfold is2. rewrite !Forall_app. split_and!; [|destruct lf as [[[la k] v]|]; cbn; [|constructor]|done].
      - apply Forall_reverse, Forall_fmap, Forall_fmap, Forall_forall. intros [b t] Hbt. cbn. split; [eauto|]. intros x Hx. apply Hd. rewrite fp_eq. right. apply elem_of_app. right.
        apply elem_kfp. eauto.
      - destruct (Gf _ _); [|constructor]. repeat constructor. cbn. by destruct Hlf as (_ & _ & ?). }
    assert (H2 : rsz is2 < rsz (RT (Art a pre lf kids) :: is_)).
    { unfold is2. rewrite !rsz_app, (rsz_perm (reverse _) (RT <$> kids.*2)), rsz_RT by apply reverse_Permutation. pose proof (rlf_sz path lf).
      unfold rsz at 3. cbn [List.map concat rfp]. rewrite fp_eq. cbn. rewrite !app_length. unfold rsz at 2. lia. }
    assert (H3 : rils path (RT (Art a pre lf kids) :: is_) = bfil (Bf path) (lfl lf) ++ rils path is2).
    { unfold is2. rewrite !rils_app, rils_rev, ril_rlf. unfold rils at 1. cbn [List.map concat ril gl]. rewrite <- !app_assoc. done. }
    destruct lf as [[[la k] v]|].
    + destruct Hlf as (-> & _ & l & -> & <- & <-). cbn [obind]. erewrite Es; [|unfold rlf, Gf; cbn [fst]; by destruct (_ || _)].
      cbn [lfl bfil List.filter] in H3. unfold Bf in H3 at 1. cbn [fst] in H3. destruct (hasPrefix (getKey (l_key l)) path) eqn:Ep.
      * rewrite H3. cbn [app]. exists is2. split_and!; [done..|lia|done].
      * apply Hgo; done.
    + cbn in Hlf. rewrite Hlf. cbn [obind]. rewrite (Es (rent <$> is_)) by done. apply Hgo; done.
  - destruct Hi as [Ha (n & Hn & Hlf)]. cbn [prevLoop fmap list_fmap rent]. rewrite Hn. rewrite bool_decide_true by done.
    assert (H1 : Forall (rok h exp) (rlf path lf ++ is_)).
    { apply Forall_app. split; [|done]. destruct lf as [[[la k] v]|]; cbn; [|constructor]. destruct (Gf _ _); [|constructor]. repeat constructor. cbn. by destruct Hlf as (_ & _ & ?). }
    assert (H2 : rsz (rlf path lf ++ is_) < rsz (RX a lf :: is_)).
    { rewrite rsz_app. pose proof (rlf_sz path lf). unfold rsz at 3. cbn. rewrite app_length. unfold rsz at 2. lia. }
    assert (H3 : rils path (rlf path lf ++ is_) = rils path (RX a lf :: is_)) by (rewrite rils_app, ril_rlf; done).
    specialize (Hgo _ H1 H2 H3). destruct lf as [[[la k] v]|].
    + destruct Hlf as (-> & _ & l & -> & <- & <-). cbn [obind]. 
      assert (rent <$> rlf path (Some (la, l_key l, l_val l)) ++ is_ = if bytes_leb (l_key l) path || Nat.eqb (length path) 0 then Some (RL la) :: (rent <$> is_) else rent <$> is_) as E
        by (unfold rlf, Gf; cbn [fst]; by destruct (_ || _)).
      rewrite E in Hgo. exact Hgo.
    + cbn in Hlf. rewrite Hlf. cbn [obind]. exact Hgo.
  - destruct Hi as (l & Hl & <- & <-). cbn [prevLoop fmap list_fmap rent]. rewrite Hl.
    assert (H2 : rsz is_ < rsz (RF la (l_key l) (l_val l) :: is_)) by (unfold rsz; cbn; lia).
    assert (H3 : rils path (RF la (l_key l) (l_val l) :: is_) = bfil (Ff path) [(l_key l, l_val l)] ++ rils path is_) by done.
    unfold bfil in H3. cbn [List.filter] in H3. unfold Ff in H3 at 1. cbn [fst] in H3. destruct (bytes_leb _ _).
    + rewrite H3. cbn [app]. exists is_. split_and!; [done..|lia|done].
    + apply Hgo; done.
Qed.

Lemma prev_yields (h : heap V) path exp nd is_ : Forall (rok h exp) is_ -> rsz is_ <= h_next h ->
  yields (prev h) (mkRI (mkIt path nd (Some (rent <$> is_))) exp) (unterm (rils path is_)).
Proof.
  remember (rils path is_) as L eqn:EL. revert is_ EL. induction L as [|kv L IH]; intros is_ EL Hs Hl.
  - pose proof (prevLoop_spec h path exp (walk_fuel h) is_ Hs) as Hn. rewrite <- EL in Hn. eapply yields_nil. unfold prev. cbn [ri_it ri_exp it_path it_stack it_node stackOf default id].
    rewrite Hn; [cbn; done|]. unfold walk_fuel. lia.
  - pose proof (prevLoop_spec h path exp (walk_fuel h) is_ Hs) as Hn. rewrite <- EL in Hn. destruct Hn as (is' & E & Hs' & Hl' & EL'); [unfold walk_fuel; lia|].
    cbn. eapply yields_cons; [|apply (IH is'); [done..|lia]]. unfold prev. cbn [ri_it ri_exp it_path it_stack it_node stackOf default id]. rewrite E. done.
Qed.

(** ** SeekReverseLowerBound *)
Lemma bfil_app f l l' : bfil f (l ++ l') = bfil f l ++ bfil f l'.
Proof. unfold bfil. induction l as [|x l IH]; [done|]. cbn. rewrite IH. by destruct (f x). Qed.
Lemma bfil_none f l : (forall x, x ∈ l -> f x = false) -> bfil f l = [].
Proof. induction l as [|x l IH]; intros Hn; [done|]. cbn. rewrite (Hn x) by left. apply IH. intros y Hy. apply Hn. by right. Qed.
Lemma bfil_reverse f l : bfil f (reverse l) = reverse (bfil f l).
Proof.
  induction l as [|x l IH]; [done|]. rewrite reverse_cons, bfil_app, IH. cbn [bfil List.filter]. fold (bfil f l). destruct (f x); [by rewrite reverse_cons|apply app_nil_r].
Qed.
Lemma elem_bfil f l x : x ∈ bfil f l <-> x ∈ l /\ f x = true.
Proof. unfold bfil. rewrite !elem_of_list_In. apply filter_In. Qed.

Section Bound.
Context (key : bytes).
Let path := key ++ [dollar].
(** Where the bound and a key stop, the other goes on with a byte above '$'. *)
Definition highL (L : list (bytes * V)) : Prop :=
  forall k v c x, (k, v) ∈ L -> (getKey k = key ++ c :: x -> dollar < c) /\ (key = getKey k ++ c :: x -> dollar <= c).
Lemma Ff_above (h : heap V) p t k v : rep h p t -> highL (leaves t) -> (k, v) ∈ leaves t -> klt path k -> Ff path (k, v) = false.
Proof.
  intros Hr Hh Hin Hk. destruct (rep_stored _ _ _ _ _ Hr Hin) as (k0 & -> & _). unfold Ff, path. cbn [fst]. rewrite !getKey_snoc.
  destruct (bytes_leb k0 key) eqn:E; [|done]. apply leb_klt in E. exfalso. apply (klt_term key k0); [|done|done].
  intros c x Ec. apply (Hh _ _ c x Hin). by rewrite getKey_snoc.
Qed.
Lemma Gf_of_Ff (h : heap V) p t k v : rep h p t -> highL (leaves t) -> (k, v) ∈ leaves t -> Ff path (k, v) = true -> Gf path (k, v) = true.
Proof.
  intros Hr Hh Hin E. unfold Gf. cbn [fst]. destruct (bytes_leb k path) eqn:E2; [done|]. exfalso.
  assert (~ ~ klt path k) as Hn by (intros Hn; apply leb_klt in Hn; congruence). apply Hn. intros Hk. by rewrite (Ff_above h p t k v Hr Hh Hin Hk) in E.
Qed.
Lemma lf_B (h : heap V) p a pre lf kids : rep h p (Art a pre lf kids) -> highL (leaves (Art a pre lf kids)) -> bfil (Ff path) (bfil (Gf path) (lfl lf)) = bfil (Ff path) (lfl lf).
Proof.
  intros Hr Hh. destruct lf as [[[la k] v]|]; [|done]. pose proof (Gf_of_Ff h p _ k v Hr Hh ltac:(rewrite leaves_eq; apply elem_of_app; left; left)) as HG.
  cbn. destruct (Gf path (k, v)); [done|]. destruct (Ff path (k, v)); [by specialize (HG eq_refl)|done].
Qed.
Lemma gl_B (h : heap V) t : forall p, rep h p t -> highL (leaves t) -> gl path t = bfil (Ff path) (reverse (leaves t)).
Proof.
  induction t as [a pre lf kids IH] using art_ind'. intros p Hr Hh. pose proof Hr as Hr0.
  apply rep_inv in Hr as (n & Hn & Hlt & He & Hpl & Hlf & Hk1 & Hk2 & Hk3 & Hst & Hkids).
  cbn [gl]. rewrite (lf_B h p a pre lf kids Hr0 Hh), leaves_eq, reverse_app, bfil_app.
  assert (bfil (Bf path) (lfl lf) = []) as ->.
  { apply bfil_none. intros [k v] Hin. unfold Bf. cbn [fst]. destruct (hasPrefix (getKey k) path) eqn:E; [|done]. exfalso.
    rewrite hasPrefix_has in E. apply has_prefix_true in E as [z E]. destruct (Hh k v dollar z ltac:(rewrite leaves_eq; apply elem_of_app; by left)) as [Hx _].
    rewrite E in Hx. unfold path in Hx. rewrite <- app_assoc in Hx. specialize (Hx eq_refl). lia. }
  cbn [app]. f_equal; [|by destruct lf as [[[la k] v]|]].
  assert (Hkh : forall b t, (b, t) ∈ kids -> highL (leaves t)) by (intros b t Hbt k v c x Hin; apply (Hh k v); by apply (kid_sub a pre lf kids b t Hbt)).
  clear -IH Hkids Hkh. induction kids as [|[b t] kids IHk]; [done|].
  cbn [List.map snd]. rewrite reverse_cons, concat_app, IHk; [|intros; eapply IH; eauto; by right|intros; apply Hkids; by right|intros; eapply Hkh; by right].
  rewrite kleaves_cons, reverse_app, bfil_app. f_equal. cbn [concat]. rewrite app_nil_r. eapply (IH b t); [left|apply Hkids; left|apply (Hkh b t); left].
Qed.

Definition pushAll (n : inode) := (fix push (itrs : list nat) (stack : list (option ref)) : outcome (list (option ref)) :=
   match itrs with
   | [] => Ok stack
   | j :: itrs' => let? ch := getChild n j in
                   push itrs' (match ch with Some ca => Some (RN ca) :: stack | None => stack end)
   end).
Lemma pushAll_spec n (kids : list (nat * art)) : enc n (ents kids) -> sortedkind (n_kind n) = true ->
  forall k1 k0 k2 stack, kids = k0 ++ k1 ++ k2 -> pushAll n (seq (length k0) (length k1)) stack = Ok ((rent <$> reverse (RT <$> k1.*2)) ++ stack).
Proof.
  intros He Hk. induction k1 as [|[b t] k1 IH]; intros k0 k2 stack E; [done|]. cbn [length seq pushAll].
  assert (Hl : kids !! length k0 = Some (b, t)) by (rewrite E; cbn; by apply list_lookup_middle).
  destruct (sorted_child _ _ _ _ He Hk (ents_lookup _ _ _ _ Hl)) as [-> _]. cbn [obind snd].
  fold (pushAll n). replace (S (length k0)) with (length (k0 ++ [(b, t)])) by (rewrite app_length; cbn; lia).
  rewrite (IH (k0 ++ [(b, t)]) k2); [|by rewrite E, <- app_assoc]. rewrite !fmap_cons, reverse_cons, fmap_app, <- app_assoc. done.
Qed.

Lemma high_pre (h : heap V) p a pre lf kids r : rep h p (Art a pre lf kids) -> highL (leaves (Art a pre lf kids)) -> kids <> [] -> key = p ++ r ->
  forall c x, pre = r ++ c :: x -> dollar < c.
Proof.
  intros Hr Hh Hne Ek c x Epre. pose proof Hr as Hr0. apply rep_inv in Hr as (n & Hn & Hlt & He & Hpl & Hlf & Hk1 & Hk2 & Hk3 & Hst & Hkids).
  destruct kids as [|[b t] kids]; [done|]. destruct (rep_nonempty _ _ _ (Hkids b t ltac:(left))) as (k & v & Hin).
  destruct (rep_leaves_kid h p a pre lf _ b t k v Hr0 ltac:(left) Hin) as [y E].
  destruct (rep_stored _ _ _ _ _ (Hkids b t ltac:(left)) Hin) as (k0 & Ek0 & _).
  assert (Hx : exists z, k0 = key ++ c :: z).
  { rewrite E in Ek0. destruct y as [|y0 y _] using rev_ind.
    - rewrite app_nil_r, app_assoc in Ek0. apply app_inj_tail in Ek0 as [<- _]. exists x. by rewrite Epre, Ek, <- app_assoc.
    - rewrite app_assoc in Ek0. apply app_inj_tail in Ek0 as [<- _]. exists (x ++ b :: y). by rewrite Epre, Ek, <- !app_assoc. }
  destruct Hx as [z Ez]. destruct (Hh k v c z ltac:(apply (kid_sub a pre lf _ b t); [left|done])) as [Hx _]. apply Hx. by rewrite Ek0, getKey_snoc.
Qed.
(** Comparing a compressed path without '$' with a part of the searched path that may reach beyond its end. *)
Lemma rev_gt pre : forall r spare u, (forall c x, pre = r ++ c :: x -> dollar < c) -> klt (take (length pre) ((r ++ [dollar]) ++ spare)) pre -> klt (r ++ [dollar]) (pre ++ u).
Proof.
  induction pre as [|b pre IH]; intros r spare u Hh Hk; [by destruct (take _ _)|].
  destruct r as [|c r]; cbn in *; [left; by apply (Hh b pre)|]. destruct Hk as [?|[-> Hk]]; [by left|]. right. split; [done|].
  eapply IH; [|done]. intros c x ->. by apply (Hh c x).
Qed.
Lemma rev_gt' (x y u : bytes) : klt x y -> klt x (y ++ u).
Proof. revert y. induction x as [|a x IH]; intros [|b y]; cbn; try done. intros [?|[? ?]]; [by left|right; auto]. Qed.
Lemma rev_eq pre : forall r spare, (forall c x, pre = r ++ c :: x -> dollar < c) -> pre = take (length pre) ((r ++ [dollar]) ++ spare) -> pre `prefix_of` r.
Proof.
  induction pre as [|b pre IH]; intros r spare Hh E; [apply prefix_nil|].
  destruct r as [|c r]; cbn in E; injection E as E1 E2; [specialize (Hh b pre eq_refl); lia|]. subst c. apply prefix_cons. eapply IH; [|done].
  intros c x ->. by apply (Hh c x).
Qed.

Lemma rok_mono (h : heap V) exp exp' i : (forall x, x ∈ exp -> x ∈ exp') -> (forall x, x ∈ rfp i -> x ∈ exp' -> x ∈ exp) -> rok h exp i -> rok h exp' i.
Proof.
  intros H1 H2. destruct i as [t|a lf|la k v]; cbn in *; [|intros [Ha Hx]; eauto|done].
  intros [Hr Hd]. split; [done|]. intros x Hx Hx'. exact (Hd x Hx (H2 x Hx Hx')).
Qed.

Lemma revLoop_spec (h : heap V) spare t : forall fuel p depth seen exp stack s' exp', rep h p t -> NoDup (fp t) -> narrowL (leaves t) -> highL (leaves t) ->
  (seen = false -> p `prefix_of` path /\ depth = length p) ->
  revLoop fuel h key path spare (Some (aroot t)) depth seen exp stack = Ok (s', exp') ->
  exists its anc, s' = (rent <$> its) ++ stack /\ exp' = anc ++ exp /\ Forall (rok h anc) its /\ (forall x, x ∈ anc -> x ∈ fp t) /\
    (forall i x, i ∈ its -> x ∈ rfp i -> x ∈ fp t) /\ rsz its <= length (fp t) /\ rils path its = bfil (Ff path) (reverse (leaves t)).
Proof.
  induction t as [a pre lf kids IH] using art_ind'. intros fuel p depth seen exp stack s' exp' Hr Hnd Hnl Hh Hun Hl.
  destruct fuel as [|fuel]; [done|]. pose proof Hr as Hr0.
  apply rep_inv in Hr as (n & Hn & Hlt & He & Hpl & Hlf & Hk1 & Hk2 & Hk3 & Hst & Hkids).
  pose proof (narrow_kind _ _ _ _ _ _ _ Hr0 Hnl Hn) as Hk. pose proof (rep_isLeaf _ _ _ _ _ _ _ Hr0 Hn) as Hil.
  set (T := Art a pre lf kids) in *.
  set (post := fun s' exp' => exists its anc, s' = (rent <$> its) ++ stack /\ exp' = anc ++ exp /\ Forall (rok h anc) its /\ (forall x, x ∈ anc -> x ∈ fp T) /\
    (forall i x, i ∈ its -> x ∈ rfp i -> x ∈ fp T) /\ rsz its <= length (fp T) /\ rils path its = bfil (Ff path) (reverse (leaves T))).
  assert (Pall : post (Some (RN a) :: stack) exp).
  { exists [RT T], []. split; [done|]. split; [done|]. split; [repeat constructor; [cbn; eauto|intros x _ Hx; by apply elem_of_nil in Hx]|].
    split; [intros x Hx; by apply elem_of_nil in Hx|]. split; [intros i x Hi Hx; by apply elem_of_list_singleton in Hi as ->|].
    split; [unfold rsz; cbn [List.map concat rfp]; by rewrite app_nil_r|]. unfold rils. cbn [List.map concat ril]. rewrite app_nil_r. by eapply gl_B. }
  assert (Pleaf : (forall kv, kv ∈ kleaves kids -> Ff path kv = false) -> post (match lf with Some (la, _, _) => Some (RL la) :: stack | None => stack end) exp).
  { intros Hno. assert (E : bfil (Ff path) (reverse (leaves T)) = bfil (Ff path) (lfl lf)).
    { unfold T. rewrite leaves_eq, reverse_app, bfil_app, (bfil_none _ (reverse (kleaves kids))); [by destruct lf as [[[? ?] ?]|]|]. intros x Hx. apply Hno. by apply elem_of_reverse. }
    destruct lf as [[[la k] v]|].
    - exists [RF la k v], []. split; [done|]. split; [done|]. split; [repeat constructor; cbn; by destruct Hlf as (_ & _ & ?)|].
      split; [intros x Hx; by apply elem_of_nil in Hx|]. split; [intros i x Hi Hx; apply elem_of_list_singleton in Hi as ->; cbn in Hx; apply elem_of_list_singleton in Hx as ->; unfold T; rewrite fp_eq; right; left|].
      split; [cbn; lia|]. rewrite E. unfold rils. cbn [List.map concat ril lfl]. by rewrite app_nil_r.
    - exists [], []. split; [done|]. split; [done|]. split; [constructor|]. split; [intros x Hx; by apply elem_of_nil in Hx|].
      split; [intros i x Hi Hx; by apply elem_of_nil in Hi|]. split; [cbn; lia|]. rewrite E. done. }
  change (post s' exp'). cbn [revLoop aroot T] in Hl. unfold nodeOf in Hl. rewrite Hn in Hl. cbn [obind] in Hl.
  rewrite (leafOf_rep _ _ _ _ _ _ _ Hr0 Hn) in Hl. cbn [obind] in Hl. rewrite Hil in Hl.
  destruct (takePartial n) as [part| |] eqn:Epart; cbn [obind] in Hl; [|done..].
  match type of Hl with obind ?X _ = _ => destruct X as [cmp| |] eqn:Ecmp end; cbn [obind] in Hl; [|done..].
  destruct (decide (kids = [])) as [Ekids|Hne].
  - (* a leaf holder *)
    rewrite bool_decide_true in Hl by done. destruct (Hk2 Ekids) as (la & k & v & -> & _). cbn [andb] in Hl.
    assert (Pl : post (Some (RL la) :: stack) exp) by (apply Pleaf; rewrite Ekids; intros kv Hkv; by apply elem_of_nil in Hkv).
    assert (Hend :
      (if bytes_eqb (getKey k) key || bytes_leb (getKey k) key then Ok (Some (RN a) :: stack, exp) else
       let? '(m, plen) := if Nat.ltb 0 (n_plen n) then let? m := prefixMismatch h a n path depth in Ok (m, n_plen n) else Ok (0, 0) in
       if Nat.ltb 0 (n_plen n) && (Nat.ltb m (n_plen n) && negb seen) then Ok (Some (RL la) :: stack, exp) else
       match path !! (depth + plen) with
       | None => Ok (Some (RN a) :: stack, exp)
       | Some c =>
          let? idx := getLowerBoundCh n c in
          let? seen0 := match (if Nat.eqb (depth + plen) (length path - 1) then match n_nch n with O => None | S i => Some i end else match idx with None => match n_nch n with O => None | S i => Some i end | Some i => Some i end) with
             | Some i => let? k := getKeyAtIdx n i in Ok ((seen || (Nat.ltb 0 (n_plen n) && Nat.ltb 0 m)) || negb (Nat.eqb k c))
             | None => Ok (seen || (Nat.ltb 0 (n_plen n) && Nat.ltb 0 m)) end in
          match (if seen0 then match n_nch n with O => None | S i => Some i end else (if Nat.eqb (depth + plen) (length path - 1) then match n_nch n with O => None | S i => Some i end else match idx with None => match n_nch n with O => None | S i => Some i end | Some i => Some i end)) with
          | None => Ok (Some (RN a) :: stack, exp)
          | Some i => let? stack0 := pushAll n (seq 0 i) (Some (RN a) :: stack) in let? ch := getChild n i in
                      revLoop fuel h key path spare ch (depth + plen + 1) seen0 (a :: exp) stack0
          end
       end) = Ok (s', exp') -> post s' exp').
    { clear Hl. intros Hl. destruct (_ || _); [by injection Hl as <- <-|].
      match type of Hl with obind ?X _ = _ => destruct X as [[m plen]| |] end; cbn [obind] in Hl; [|done..].
      destruct (_ && _); [by injection Hl as <- <-|]. destruct (path !! _) as [c|]; [|by injection Hl as <- <-].
      destruct (getLowerBoundCh n c) as [o| |] eqn:Eo; cbn [obind] in Hl; [|done..].
      destruct (lower_ch _ _ _ _ He Hk Eo) as (k1 & k2 & Ek & _ & _ & ->). rewrite Ekids in Ek. symmetry in Ek. apply app_nil in Ek as [-> ->].
      assert (n_nch n = 0) as Hz by (rewrite (enc_nch_sorted _ _ He Hk), Ekids; done). rewrite Hz in Hl.
      destruct (Nat.eqb _ _); cbn [obind] in Hl; destruct (seen || _); by injection Hl as <- <-. }
    destruct cmp, seen; try (by injection Hl as <- <-); exact (Hend Hl).
  - destruct (Hk1 Hne) as (Hpn & Hpt & Hnod). destruct (takePartial_pre _ _ _ Hpn Hpl Hpt Epart) as [-> Hple].
    rewrite bool_decide_false in Hl by done. cbn [andb] in Hl. rewrite Hpn in Hl, Ecmp.
    assert (Hplen : 0 < length path) by (unfold path; rewrite app_length; cbn; lia).
    assert (Hp : seen = false -> exists r, key = p ++ r).
    { intros Hs. destruct (Hun Hs) as [[y Hy] _]. unfold path in Hy. destruct y as [|y0 y _] using rev_ind.
      - exfalso. rewrite app_nil_r in Hy. apply opn_nodollar, Forall_app in Hnod as [Hnod _]. rewrite <- Hy in Hnod. apply Forall_app in Hnod as [_ Hnod]. by apply Forall_cons in Hnod as [? _].
      - rewrite app_assoc in Hy. apply app_inj_tail in Hy as [-> _]. eauto. }
    assert (Hcmp : seen = false -> exists r, key = p ++ r /\ (cmp = Gt -> forall u, klt (r ++ [dollar]) (pre ++ u)) /\ (cmp = Eq -> pre `prefix_of` r)).
    { intros Hs. destruct (Hp Hs) as [r Er]. destruct (Hun Hs) as [_ Hd]. exists r. split; [done|].
      pose proof (high_pre _ _ _ _ _ _ r Hr0 Hh Hne Er) as Hhp.
      assert (Hdr : drop depth path = r ++ [dollar]) by (unfold path; rewrite Hd, Er, <- app_assoc, drop_app; done).
      assert (Hdl : depth <= length path) by (unfold path; rewrite Hd, Er, !app_length; lia).
      destruct (Nat.ltb (length pre) (length path)).
      - destruct (Nat.ltb _ _); [done|]. injection Ecmp as <-. unfold slice. rewrite drop_app_le, Hdr by done. replace (depth + length pre - depth) with (length pre) by lia. split.
        + intros Hg u. apply cmp_gt in Hg. by eapply rev_gt.
        + intros Heq. apply cmp_eq in Heq. by eapply rev_eq.
      - destruct (Nat.ltb _ _); [done|]. injection Ecmp as <-. rewrite Hdr. split.
        + intros Hg u. apply cmp_gt in Hg. by apply rev_gt'.
        + intros Heq. apply cmp_eq in Heq. exfalso. specialize (Hhp dollar [] Heq). lia. }
    assert (Hbig : forall c b t k v, (p ++ pre ++ [c]) `prefix_of` path -> (b, t) ∈ kids -> c < b -> (k, v) ∈ leaves t -> Ff path (k, v) = false).
    { intros c b t k v [y Hy] Hbt Hcb Hin. eapply (Ff_above h p T); [done|done|by apply (kid_sub a pre lf kids b t)|].
      destruct (rep_leaves_kid _ _ _ _ _ _ _ _ _ _ Hr0 Hbt Hin) as [x ->]. rewrite Hy, <- !app_assoc. apply klt_app, klt_app. by apply klt_cons. }
    assert (Hgo : (seen = false -> (p ++ pre) `prefix_of` key) ->
      (let? '(m, plen) := if Nat.ltb 0 (length pre) then let? m := prefixMismatch h a n path depth in Ok (m, length pre) else Ok (0, 0) in
       if Nat.ltb 0 (length pre) && (Nat.ltb m (length pre) && negb seen)
       then Ok (match (match lf with Some (la, k, _) => Some (la, k) | None => None end) with Some (la, _) => Some (RL la) :: stack | None => stack end, exp) else
       match path !! (depth + plen) with
       | None => Ok (Some (RN a) :: stack, exp)
       | Some c =>
          let? idx := getLowerBoundCh n c in
          let? seen0 := match (if Nat.eqb (depth + plen) (length path - 1) then match n_nch n with O => None | S i => Some i end else match idx with None => match n_nch n with O => None | S i => Some i end | Some i => Some i end) with
             | Some i => let? k := getKeyAtIdx n i in Ok ((seen || (Nat.ltb 0 (length pre) && Nat.ltb 0 m)) || negb (Nat.eqb k c))
             | None => Ok (seen || (Nat.ltb 0 (length pre) && Nat.ltb 0 m)) end in
          match (if seen0 then match n_nch n with O => None | S i => Some i end else (if Nat.eqb (depth + plen) (length path - 1) then match n_nch n with O => None | S i => Some i end else match idx with None => match n_nch n with O => None | S i => Some i end | Some i => Some i end)) with
          | None => Ok (match (match lf with Some (la, k, _) => Some (la, k) | None => None end) with Some _ => Some (RN a) :: stack | None => stack end, exp)
          | Some i => let? stack0 := pushAll n (seq 0 i) (match (match lf with Some (la, k, _) => Some (la, k) | None => None end) with Some _ => Some (RN a) :: stack | None => stack end) in let? ch := getChild n i in
                      revLoop fuel h key path spare ch (depth + plen + 1) seen0 (a :: exp) stack0
          end
       end) = Ok (s', exp') -> post s' exp').
    { clear Hl. intros Hpp Hl.
      assert (exists m, (seen = false -> m = length pre) /\ 
       (if Nat.ltb 0 (length pre) && (Nat.ltb m (length pre) && negb seen)
       then Ok (match (match lf with Some (la, k, _) => Some (la, k) | None => None end) with Some (la, _) => Some (RL la) :: stack | None => stack end, exp) else
       match path !! (depth + length pre) with
       | None => Ok (Some (RN a) :: stack, exp)
       | Some c =>
          let? idx := getLowerBoundCh n c in
          let? seen0 := match (if Nat.eqb (depth + length pre) (length path - 1) then match n_nch n with O => None | S i => Some i end else match idx with None => match n_nch n with O => None | S i => Some i end | Some i => Some i end) with
             | Some i => let? k := getKeyAtIdx n i in Ok ((seen || (Nat.ltb 0 (length pre) && Nat.ltb 0 m)) || negb (Nat.eqb k c))
             | None => Ok (seen || (Nat.ltb 0 (length pre) && Nat.ltb 0 m)) end in
          match (if seen0 then match n_nch n with O => None | S i => Some i end else (if Nat.eqb (depth + length pre) (length path - 1) then match n_nch n with O => None | S i => Some i end else match idx with None => match n_nch n with O => None | S i => Some i end | Some i => Some i end)) with
          | None => Ok (match (match lf with Some (la, k, _) => Some (la, k) | None => None end) with Some _ => Some (RN a) :: stack | None => stack end, exp)
          | Some i => let? stack0 := pushAll n (seq 0 i) (match (match lf with Some (la, k, _) => Some (la, k) | None => None end) with Some _ => Some (RN a) :: stack | None => stack end) in let? ch := getChild n i in
                      revLoop fuel h key path spare ch (depth + length pre + 1) seen0 (a :: exp) stack0
          end
       end) = Ok (s', exp')) as (m & Hm & Hl').
      { destruct (Nat.ltb_spec 0 (length pre)) as [Hp0|Hp0].
        - destruct (prefixMismatch h a n path depth) as [m| |] eqn:Em; cbn [obind] in Hl; [|done..]. exists m. split; [|exact Hl].
          intros Hs. destruct (Hun Hs) as [_ Hd]. rewrite Hd in Em. refine (prefixMismatch_match _ _ _ _ _ _ _ Hpn Hpl Hpt Hple _ Em).
          etrans; [exact (Hpp Hs)|]. unfold path. by apply prefix_app_r.
        - exists 0. cbn [obind] in Hl. replace (length pre) with 0 in * by lia. split; [done|exact Hl]. }
      clear Hl. rename Hl' into Hl.
      destruct (Nat.ltb 0 (length pre) && (Nat.ltb m (length pre) && negb seen)) eqn:Estop.
      { apply andb_true_iff in Estop as [_ Estop]. apply andb_true_iff in Estop as [E1 E2]. apply Nat.ltb_lt in E1. destruct seen; [done|]. specialize (Hm eq_refl). lia. }
      clear Estop. destruct (path !! (depth + length pre)) as [c|] eqn:Ec; [|by injection Hl as <- <-].
      assert (Hpc : seen = false -> (p ++ pre ++ [c]) `prefix_of` path).
      { intros Hs. destruct (Hun Hs) as [_ Hd]. destruct (Hpp Hs) as [y Hy]. unfold path in *. rewrite Hy in Ec. rewrite Hd, <- !app_assoc in Ec. rewrite lookup_app_r in Ec by lia.
        rewrite lookup_app_r in Ec by lia. replace (length p + length pre - length p - length pre) with 0 in Ec by lia. rewrite Hy.
        destruct y as [|c' y]; injection Ec as ->; [exists []|exists (y ++ [dollar])]; rewrite <- !app_assoc; done. }
      destruct (getLowerBoundCh n c) as [o| |] eqn:Eo; cbn [obind] in Hl; [|done..].
      destruct (lower_ch _ _ _ _ He Hk Eo) as (k1 & k2 & Ek & Hb1 & Hb2 & ->).
      assert (Hnch : n_nch n = length kids) by (rewrite (enc_nch_sorted _ _ He Hk); unfold ents; by rewrite map_length).
      destruct (n_nch n) as [|last] eqn:En; [destruct kids; [done|cbn in Hnch; lia]|].
      match type of Hl with context [match ?X with Some i => let? k := getKeyAtIdx n i in _ | None => _ end] => set (idx := X) in Hl end.
      assert (Hidx : exists j b t, idx = Some j /\ kids !! j = Some (b, t) /\ (b = c -> seen = false -> forall b' t' k v, (b', t') ∈ drop (S j) kids -> (k, v) ∈ leaves t' -> Ff path (k, v) = false)).
      { unfold idx. clear idx Hl. assert (Hlast : exists b t, kids !! last = Some (b, t)).
        { destruct (lookup_lt_is_Some_2 kids last ltac:(lia)) as [[b t] E]. eauto. }
        assert (Hd : drop (S last) kids = []) by (apply drop_ge; lia).
        assert (Pl : exists j b t, Some last = Some j /\ kids !! j = Some (b, t) /\ (b = c -> seen = false -> forall b' t' k v, (b', t') ∈ drop (S j) kids -> (k, v) ∈ leaves t' -> Ff path (k, v) = false)).
        { destruct Hlast as (b & t & E). exists last, b, t. split; [done|]. split; [done|]. intros _ _ b' t' k v Hx. rewrite Hd in Hx. by apply elem_of_nil in Hx. }
        destruct (Nat.eqb _ _); [exact Pl|]. destruct k2 as [|[b t] k2]; [exact Pl|]. exists (length k1), b, t. split; [done|].
        split; [rewrite Ek; by apply list_lookup_middle|]. intros -> Hs b' t' k v Hx Hin.
        assert (Hd2 : drop (S (length k1)) kids = k2).
        { rewrite Ek. replace (k1 ++ (c, t) :: k2) with ((k1 ++ [(c, t)]) ++ k2) by (by rewrite <- app_assoc). apply drop_app_alt. rewrite app_length. cbn. lia. }
        rewrite Hd2 in Hx. assert (Hbt : (b', t') ∈ kids) by (rewrite Ek; apply elem_of_app; right; by right).
        eapply (Hbig c b' t' k v); [by apply Hpc|done| |done].
        assert (c <= b') by (eapply Hb2; by right). assert (b' <> c); [|lia]. intros ->.
        pose proof (rep_sorted _ _ _ _ _ _ Hr0) as Hks. rewrite Ek, fmap_app in Hks. apply NoDup_app in Hks as (_ & _ & Hks). cbn in Hks. apply NoDup_cons in Hks as [Hks _].
        apply Hks. apply elem_of_list_fmap. by exists (c, t'). }
      destruct Hidx as (j & b & t & Eidx & Hj & Hjd). clearbody idx. subst idx. destruct (sorted_child _ _ _ _ He Hk (ents_lookup _ _ _ _ Hj)) as [Eg1 Eg2]. rewrite Eg2 in Hl. cbn [obind fst] in Hl.
      set (seen0 := (seen || (Nat.ltb 0 (length pre) && Nat.ltb 0 m)) || negb (Nat.eqb b c)) in Hl.
      assert (Hfin : exists k1 b1 t1 k2, (if seen0 then Some last else Some j) = Some (length k1) /\ kids = k1 ++ (b1, t1) :: k2 /\ (seen0 = false -> b1 = c) /\
        forall b' t' k v, (b', t') ∈ k2 -> (k, v) ∈ leaves t' -> Ff path (k, v) = false).
      { destruct seen0 eqn:Es0.
        - destruct (lookup_lt_is_Some_2 kids last ltac:(lia)) as [[b1 t1] E]. exists (take last kids), b1, t1, []. rewrite take_length_le by lia.
          split; [done|]. split; [|split; [done|intros ? ? ? ? Hx; by apply elem_of_nil in Hx]].
          rewrite <- (take_drop_middle kids last _ E) at 1. f_equal. f_equal. apply drop_ge. lia.
        - exists (take j kids), b, t, (drop (S j) kids). apply lookup_lt_Some in Hj as Hjl. rewrite take_length_le by lia. split; [done|].
          split; [symmetry; by apply take_drop_middle|]. unfold seen0 in Es0. apply orb_false_iff in Es0 as [Es1 Es2]. apply orb_false_iff in Es1 as [Es1 _].
          apply negb_false_iff, Nat.eqb_eq in Es2. split; [done|]. intros b' t' k v. by apply Hjd. }
      clear Hj Hjd Eg1 Eg2. destruct Hfin as (j1 & b1 & t1 & j2 & Efin & Ej & Hbc & Hdrop). rewrite Efin in Hl.
      rewrite (pushAll_spec n kids He Hk j1 [] ((b1, t1) :: j2)) in Hl by done. cbn [obind] in Hl.
      assert (Hb1t1 : kids !! length j1 = Some (b1, t1)) by (rewrite Ej; by apply list_lookup_middle).
      destruct (sorted_child _ _ _ _ He Hk (ents_lookup _ _ _ _ Hb1t1)) as [Eg1 _]. rewrite Eg1 in Hl. cbn [obind snd] in Hl.
      assert (Hin1 : (b1, t1) ∈ kids) by (by eapply elem_of_list_lookup_2).
      assert (Hndk : NoDup (a :: lfa lf ++ kfp j1 ++ fp t1 ++ kfp j2)).
      { unfold T in Hnd. rewrite fp_eq, Ej, kfp_app, kfp_cons in Hnd. done. }
      apply (IH b1 t1 Hin1 fuel (p ++ pre ++ [b1])) in Hl as (its & anc & -> & -> & Ho & Hanc & Hits & Hsz & Hrl).
      - set (lfi := match lf with Some _ => [RX a lf] | None => [] end).
        exists (its ++ reverse (RT <$> j1.*2) ++ lfi), (anc ++ [a]). apply NoDup_cons in Hndk as [Ha Hndk]. apply NoDup_app in Hndk as (_ & Hlfd & Hndk).
        apply NoDup_app in Hndk as (_ & Hj1d & _).
        assert (Hfp : fp T = a :: lfa lf ++ kfp j1 ++ fp t1 ++ kfp j2) by (unfold T; by rewrite fp_eq, Ej, kfp_app, kfp_cons).
        assert (Hlfi : lfi = [] \/ lfi = [RX a lf]) by (unfold lfi; destruct lf; auto).
        split; [|split; [by rewrite <- app_assoc|split; [|split; [|split; [|split]]]]].
        + rewrite !fmap_app, <- !app_assoc. f_equal. f_equal. unfold lfi. by destruct lf as [[[? ?] ?]|].
        + rewrite !Forall_app. split; [|split].
          * eapply Forall_forall. intros i Hi. rewrite Forall_forall in Ho. eapply rok_mono; [| |by apply Ho]; [intros x Hx; apply elem_of_app; by left|].
            intros x Hx Hx'. apply elem_of_app in Hx' as [?|Hx']; [done|]. apply elem_of_list_singleton in Hx' as ->. exfalso. apply Ha.
            apply elem_of_app. right. apply elem_of_app. right. apply elem_of_app. left. by eapply Hits.
          * apply Forall_reverse, Forall_fmap, Forall_fmap, Forall_forall. intros [b' t'] Hbt. cbn.
            assert (Hk' : forall x, x ∈ fp t' -> x ∈ kfp j1) by (intros x Hx; apply elem_kfp; eauto).
            split; [exists (p ++ pre ++ [b']); apply Hkids; rewrite Ej; apply elem_of_app; by left|]. intros x Hx Hx'.
            apply elem_of_app in Hx' as [Hx'|Hx'].
            -- apply (Hj1d x (Hk' x Hx)). apply elem_of_app. left. by apply Hanc.
            -- apply elem_of_list_singleton in Hx' as ->. apply Ha. apply elem_of_app. right. apply elem_of_app. left. by apply Hk'.
          * destruct Hlfi as [->| ->]; repeat constructor; [apply elem_of_app; right; by left|exists n; done].
        + intros x Hx. apply elem_of_app in Hx as [Hx|Hx]; rewrite Hfp; [right; rewrite !elem_of_app; right; right; left; by apply Hanc|].
          apply elem_of_list_singleton in Hx as ->. left.
        + intros i x Hi Hx. rewrite Hfp. rewrite !elem_of_app in Hi. destruct Hi as [Hi|[Hi|Hi]].
          * right. rewrite !elem_of_app. right. right. left. by eapply Hits.
          * apply elem_of_reverse, elem_of_list_fmap in Hi as (t' & -> & Hi). apply elem_of_list_fmap in Hi as ([b' t''] & -> & Hi). cbn in Hx.
            right. rewrite !elem_of_app. right. left. apply elem_kfp. eauto.
          * destruct Hlfi as [E|E]; rewrite E in Hi; [by apply elem_of_nil in Hi|]. apply elem_of_list_singleton in Hi as ->. cbn in Hx.
            apply elem_of_cons in Hx as [->|Hx]; [left|right]. rewrite !elem_of_app. by left.
        + rewrite !rsz_app, (rsz_perm (reverse _) (RT <$> j1.*2)), rsz_RT by apply reverse_Permutation. rewrite Hfp. cbn [length]. rewrite !app_length.
          assert (rsz lfi <= S (length (lfa lf))); [|lia]. destruct Hlfi as [->| ->]; unfold rsz; cbn; [lia|]. rewrite app_nil_r. lia.
        + rewrite !rils_app, Hrl, rils_rev.
          assert (Ekl : concat (reverse (List.map (fun bt => gl path bt.2) j1)) = bfil (Ff path) (reverse (kleaves j1))).
          { assert (Hj1 : forall b t, (b, t) ∈ j1 -> (b, t) ∈ kids) by (intros b' t' Hx; rewrite Ej; apply elem_of_app; by left).
            clear -Hj1 Hkids Hh. induction j1 as [|[b' t'] j1 IHj]; [done|]. cbn [List.map snd]. rewrite reverse_cons, concat_app, IHj by (intros; apply Hj1; by right).
            rewrite kleaves_cons, reverse_app, bfil_app. f_equal. cbn [concat]. rewrite app_nil_r. eapply gl_B; [apply Hkids, Hj1; left|].
            intros k v c0 x0 Hin. apply (Hh k v). apply (kid_sub a pre lf kids b' t'); [apply Hj1; left|done]. }
          assert (Elf : rils path lfi = bfil (Ff path) (reverse (lfl lf))).
          { transitivity (bfil (Ff path) (lfl lf)); [|by destruct lf as [[[? ?] ?]|]]. rewrite <- (lf_B h p a pre lf kids Hr0 Hh). unfold lfi, rils. destruct lf as [[[la k] v]|]; [|done]. cbn [List.map concat ril]. by rewrite app_nil_r. }
          rewrite Ekl, Elf. unfold T. rewrite leaves_eq, Ej, kleaves_app, kleaves_cons, !reverse_app, !bfil_app, <- !app_assoc.
          rewrite (bfil_none _ (reverse (kleaves j2))); [done|]. intros [k v] Hx. apply elem_of_reverse, elem_kleaves in Hx as (b' & t' & Hx & Hin). by eapply Hdrop.
      - by apply Hkids.
      - apply NoDup_cons in Hndk as [_ Hndk]. apply NoDup_app in Hndk as (_ & _ & Hndk). apply NoDup_app in Hndk as (_ & _ & Hndk). by apply NoDup_app in Hndk as (? & _ & _).
      - eapply narrowL_sub; [|exact Hnl]. by apply (kid_sub a pre lf kids b1).
      - intros k v c0 x0 Hin. apply (Hh k v). by apply (kid_sub a pre lf kids b1 t1).
      - intros Hs. rewrite (Hbc Hs). unfold seen0 in Hs. apply orb_false_iff in Hs as [Hs _]. apply orb_false_iff in Hs as [Hs _]. split; [by apply Hpc|].
        destruct (Hun Hs) as [_ Hd]. rewrite !app_length. cbn. lia. }
    assert (Hnone : forall lf' : option (addr * bytes * V), match (match lf' with Some (la, k, _) => Some (la, k) | None => None end) with Some (la, _) => Some (RL la) :: stack | None => stack end = match lf' with Some (la, _, _) => Some (RL la) :: stack | None => stack end) by (by intros [[[? ?] ?]|]).
    destruct cmp.
    + apply Hgo; [|exact Hl]. intros Hs. destruct (Hcmp Hs) as (r & -> & _ & Hc). apply prefix_app. by apply Hc.
    + by injection Hl as <- <-.
    + destruct seen; [apply Hgo; [done|exact Hl]|]. rewrite Hnone in Hl. injection Hl as <- <-. apply Pleaf. intros [k v] Hin. apply elem_kleaves in Hin as (b & t & Hbt & Hin).
      destruct (Hcmp eq_refl) as (r & Er & Hg & _). eapply (Ff_above h p T); [done|done|by apply (kid_sub a pre lf kids b t)|].
      destruct (rep_leaves_kid _ _ _ _ _ _ _ _ _ _ Hr0 Hbt Hin) as [x ->]. unfold path. rewrite Er, <- !app_assoc. apply klt_app. by apply Hg.
Qed.
End Bound.

(** ** SeekPrefix when some key has the prefix *)
Lemma lcp_prefix (x y z : bytes) : length x <= lcp (x ++ y) (x ++ z).
Proof. induction x as [|a x IH]; cbn; [lia|]. rewrite Nat.eqb_refl. lia. Qed.
Lemma prefixMismatch_ge (h : heap V) p a pre lf kids n q d : rep h p (Art a pre lf kids) -> NoDup (fp (Art a pre lf kids)) ->
  h_nodes h !! a = Some n -> kids <> [] -> (p ++ pre) `prefix_of` q -> prefixMismatch h a n q (length p) = Ok d -> length pre <= d.
Proof.
  intros Hr Hnd Hn Hne [z ->]. pose proof Hr as Hr0. pose proof (fp_bound _ _ _ Hr Hnd) as Hfb.
  apply rep_inv in Hr as (n' & Hn' & Hlt & He & Hpl & Hlf & Hk1 & Hk2 & Hk3 & Hst & Hkids).
  assert (n' = n) as -> by congruence. destruct (Hk1 Hne) as (Hpn & Hpt & Hnd2). rewrite <- app_assoc. set (rest := pre ++ z).
  unfold prefixMismatch. rewrite Hpn, app_length. replace (length p + length rest - length p) with (length rest) by lia.
  set (m := maxPrefixLen `min` length pre) in *. assert (Hrl : length pre <= length rest) by (unfold rest; rewrite app_length; lia).
  assert (Hmm : m <= maxPrefixLen) by (unfold m; lia).
  assert (HL : length pre <= lcp pre rest) by (unfold rest; rewrite <- (app_nil_r pre) at 2; apply lcp_prefix).
  assert (Hm : m `min` lcp (n_partial n) rest = m).
  { rewrite <- lcp_take_l', Hpt. replace (take maxPrefixLen pre) with (take m pre) by (unfold m; by rewrite <- take_take, (firstn_all pre)).
    rewrite lcp_take_l'. unfold m. lia. }
  rewrite cmp_loop_0; [|lia|rewrite app_length; lia]. rewrite drop_app. cbn [obind].
  replace ((m `min` length rest) `min` lcp (n_partial n) rest) with m by lia. rewrite (proj2 (Nat.ltb_ge m (m `min` length rest))) by lia.
  destruct (Nat.ltb_spec maxPrefixLen (length pre)) as [Hgt|Hle]; [|intros [= <-]; unfold m; lia].
  unfold walk_fuel. destruct (minimum_step h p pre lf kids a n (h_next h)) as (la & l & b & x & E & Hl & Hlk); try done.
  { rewrite (rep_isLeaf _ _ _ _ _ _ _ Hr0 Hn). by rewrite bool_decide_false. }
  { intros la k v El. apply (Hk3 _ _ _ El). done. }
  { intros b t Hbt. split; [by apply Hkids|]. pose proof (fp_kid_le a pre lf kids b t Hbt). lia. }
  rewrite E. cbn [obind]. rewrite Hl, Hlk. rewrite drop_app.
  set (y := b :: x) in *. assert (HL' : length pre <= lcp (pre ++ y) rest) by (apply lcp_prefix).
  pose proof (lcp_le_l (pre ++ y) rest) as Hll. pose proof (lcp_le_r (pre ++ y) rest) as Hlr. rewrite app_length in Hll.
  rewrite cmp_loop_spec; [| |rewrite !app_length; lia|rewrite !app_length; lia|rewrite !app_length; unfold m in *; lia].
  2:{ rewrite !app_length. lia. }
  rewrite <- drop_drop, drop_app, lcp_drop by lia. rewrite !app_length. intros [= <-]. lia.
Qed.

Lemma prefix_len_eq (x y : bytes) : x `prefix_of` y -> length y <= length x -> x = y.
Proof. intros [z ->] Hl. rewrite app_length in Hl. destruct z; [by rewrite app_nil_r|cbn in Hl; lia]. Qed.
Lemma seekLoop_all (h : heap V) q t : is_bytes q -> last q <> Some dollar -> forall fuel p r, rep h p t -> NoDup (fp t) ->
  (exists kv, kv ∈ leaves t /\ q `prefix_of` kv.1) -> seekLoop fuel h (aroot t) q (length p) = Ok r ->
  exists t' p', r = aroot t' /\ rep h p' t' /\ length (fp t') <= length (fp t) /\ (forall kv, kv ∈ leaves t' -> q `prefix_of` kv.1) /\
    leaves t' `sublist_of` leaves t /\ (forall kv, kv ∈ leaves t -> q `prefix_of` kv.1 -> kv ∈ leaves t').
Proof.
  intros Hb Hlast. induction t as [a pre lf kids IH] using art_ind'. intros fuel p r Hr Hnd ([k v] & Hin & Hq) Hl. cbn [fst] in Hq.
  destruct fuel as [|fuel]; [done|]. cbn [seekLoop aroot] in Hl. pose proof Hr as Hr0.
  set (T := Art a pre lf kids) in *.
  assert (Hstay : (forall kv, kv ∈ leaves T -> q `prefix_of` kv.1) -> exists t' p', a = aroot t' /\ rep h p' t' /\ length (fp t') <= length (fp T) /\ (forall kv, kv ∈ leaves t' -> q `prefix_of` kv.1) /\
    leaves t' `sublist_of` leaves T /\ (forall kv, kv ∈ leaves T -> q `prefix_of` kv.1 -> kv ∈ leaves t')) by (intros; exists T, p; eauto 10).
  apply rep_inv in Hr as (n & Hn & Hlt & He & Hpl & Hlf & Hk1 & Hk2 & Hk3 & Hst & Hkids).
  rewrite Hn, (rep_isLeaf _ _ _ _ _ _ _ Hr0 Hn) in Hl.
  assert (Hq256 : forall i c, q !! i = Some c -> c < 256).
  { intros i c Hc. unfold is_bytes in Hb. rewrite Forall_forall in Hb. by eapply Hb, elem_of_list_lookup_2. }
  destruct (decide (kids = [])) as [Ekids|Hne].
  { rewrite bool_decide_true in Hl by done. cbn [negb andb obind] in Hl.
    assert (Ha : r = a).
    { destruct (q !! length p) as [c|] eqn:Ec; [|congruence]. rewrite (findChild_None n (ents kids)) in Hl; [cbn in Hl; congruence|done|by eapply Hq256|by rewrite Ekids]. }
    subst r. apply Hstay. destruct (Hk2 Ekids) as (la & k1 & v1 & -> & _). unfold T in *. rewrite Ekids in *. cbn in Hin. apply elem_of_list_singleton in Hin as [= -> ->].
    intros kv Hkv. cbn in Hkv. by apply elem_of_list_singleton in Hkv as ->. }
  rewrite bool_decide_false in Hl by done. cbn [negb andb] in Hl. destruct (Hk1 Hne) as (Hpn & Hpt & Hnod).
  (* every leaf lies below the compressed path *)
  assert (Hpp : forall kv, kv ∈ leaves T -> (p ++ pre) `prefix_of` kv.1).
  { intros [k1 v1] Hin1. apply elem_leaves in Hin1 as [[la Hla]|(b & t & Hbt & Hin1)]; cbn [fst].
    - destruct (Hk3 _ _ _ Hla) as [_ Hx]. destruct (Hx Hne) as [-> _]. exists [dollar]. by rewrite <- app_assoc.
    - destruct (rep_leaves_kid _ _ _ _ _ _ _ _ _ _ Hr0 Hbt Hin1) as [x ->]. exists ([b] ++ x). by rewrite <- !app_assoc. }
  assert (Hshort : length q <= length (p ++ pre) -> forall kv, kv ∈ leaves T -> q `prefix_of` kv.1).
  { intros Hlen kv Hkv. etrans; [|exact (Hpp kv Hkv)]. specialize (Hpp (k, v) Hin). cbn in Hpp.
    destruct (prefix_weak_total _ _ _ Hq Hpp) as [?|Hx]; [done|]. apply prefix_len_eq in Hx as ->; [done|lia]. }
  assert (Hlong : length (p ++ pre) <= length q -> (p ++ pre) `prefix_of` q).
  { intros Hlen. specialize (Hpp (k, v) Hin). cbn in Hpp. destruct (prefix_weak_total _ _ _ Hpp Hq) as [?|Hx]; [done|]. apply prefix_len_eq in Hx as ->; [done|lia]. }
  assert (Hgo : match q !! (length p + length pre) with
     | None => Ok a
     | Some c => let? '(child, _) := findChild n c in match child with None => Ok a | Some ca => seekLoop fuel h ca q (length p + length pre + 1) end
     end = Ok r -> exists t' p', r = aroot t' /\ rep h p' t' /\ length (fp t') <= length (fp T) /\ (forall kv, kv ∈ leaves t' -> q `prefix_of` kv.1) /\
    leaves t' `sublist_of` leaves T /\ (forall kv, kv ∈ leaves T -> q `prefix_of` kv.1 -> kv ∈ leaves t')).
  { clear Hl. intros Hl. destruct (q !! (length p + length pre)) as [c|] eqn:Ec.
    2:{ injection Hl as <-. apply Hstay, Hshort. apply lookup_ge_None in Ec. rewrite app_length. lia. }
    apply lookup_lt_Some in Ec as Hlc.
    assert (Hkey : forall k1 v1, (k1, v1) ∈ leaves T -> q `prefix_of` k1 -> exists t1, (c, t1) ∈ kids /\ (k1, v1) ∈ leaves t1).
    { intros k1 v1 Hin1 [x Ex]. apply elem_leaves in Hin1 as [[la Hla]|(b & t & Hbt & Hin1)].
      - exfalso. destruct (Hk3 _ _ _ Hla) as [_ Hx]. destruct (Hx Hne) as [Ek _]. rewrite Ek in Ex.
        assert (x = []) as ->. { apply (f_equal length) in Ex. rewrite !app_length in Ex. cbn in Ex. destruct x; [done|]. cbn in Ex. lia. }
        rewrite app_nil_r in Ex. subst q. apply Hlast. rewrite app_assoc. by rewrite last_snoc.
      - destruct (rep_leaves_kid _ _ _ _ _ _ _ _ _ _ Hr0 Hbt Hin1) as [x' Ek]. assert (b = c) as ->; [|eauto].
        assert (k1 !! (length p + length pre) = Some c) as E1 by (rewrite Ex; by rewrite lookup_app_l).
        rewrite Ek in E1. rewrite <- !app_assoc in E1. rewrite lookup_app_r in E1 by lia. rewrite lookup_app_r in E1 by lia.
        replace (length p + length pre - length p - length pre) with 0 in E1 by lia. cbn in E1. congruence. }
    destruct (Hkey k v Hin Hq) as (t & Hct & Hint).
    assert (Hal : alook (ents kids) c = Some (aroot t)) by (apply elem_alook; [by eapply enc_sorted|apply elem_ents; eauto]).
    destruct (alook_split _ _ _ Hal) as (l1 & l2 & El). destruct (enc_set n l1 c (aroot t) l2) as (idx & Hfc & _); [by rewrite <- El|].
    rewrite Hfc in Hl. cbn [obind] in Hl.
    destruct (IH c t Hct fuel (p ++ pre ++ [c]) r) as (t' & p' & -> & Hr' & Hf' & Ha' & Hs' & Hc').
    - by apply Hkids.
    - apply elem_of_list_split in Hct as (k1 & k2 & ->). unfold T in Hnd. rewrite fp_eq in Hnd. apply NoDup_cons in Hnd as [_ Hnd]. apply NoDup_app in Hnd as (_ & _ & Hnd). rewrite kfp_app, kfp_cons in Hnd.
      apply NoDup_app in Hnd as (_ & _ & Hnd). by apply NoDup_app in Hnd as [? _].
    - exists (k, v). done.
    - rewrite !app_length. cbn [length]. rewrite Nat.add_assoc. done.
    - exists t', p'. split; [done|]. split; [done|]. split; [pose proof (fp_kid_le a pre lf kids c t Hct); unfold T; lia|]. split; [done|]. split.
      + etrans; [exact Hs'|]. unfold T. rewrite leaves_eq. apply sublist_inserts_l. apply elem_of_list_split in Hct as (k1 & k2 & ->). rewrite kleaves_app, kleaves_cons.
        apply sublist_inserts_l, sublist_inserts_r. done.
      + intros [k1 v1] Hin1 Hq1. cbn in Hq1. destruct (Hkey k1 v1 Hin1 Hq1) as (t1 & Hct1 & Hin1').
        assert (t1 = t) as ->; [|by apply Hc'].
        pose proof (rep_sorted _ _ _ _ _ _ Hr0) as Hks. apply elem_of_list_split in Hct as (k1' & k2' & ->). rewrite fmap_app in Hks. cbn in Hks.
        apply NoDup_app in Hks as (_ & Hd1 & Hks). apply NoDup_cons in Hks as [Hd2 _].
        apply elem_of_app in Hct1 as [Hct1|Hct1]; [exfalso; apply (Hd1 c); [apply elem_of_list_fmap; by exists (c, t1)|left]|].
        apply elem_of_cons in Hct1 as [[= ->]|Hct1]; [done|]. exfalso. apply Hd2. apply elem_of_list_fmap. by exists (c, t1). }
  destruct (Nat.ltb_spec 0 (n_plen n)) as [Hp0|Hp0]; cbn [obind] in Hl.
  - destruct (prefixMismatch h a n q (length p)) as [m| |] eqn:Em; cbn [obind] in Hl; [|done..]. destruct (Nat.ltb_spec m (n_plen n)); cbn [obind] in Hl.
    + injection Hl as <-. apply Hstay, Hshort. destruct (decide (length (p ++ pre) <= length q)) as [Hd|]; [|lia]. exfalso.
      pose proof (prefixMismatch_ge _ _ _ _ _ _ _ _ _ Hr0 Hnd Hn Hne (Hlong Hd) Em). lia.
    + rewrite Hpn in Hl. by apply Hgo.
  - apply Hgo. replace (length p + length pre) with (length p) by lia. done.
Qed.

(** ** The tree below a prefix, in reverse *)
Lemma gl_A (h : heap V) q t : last q <> Some dollar -> forall p, rep h p t -> (forall k v, (k, v) ∈ leaves t -> q `prefix_of` k) ->
  (q = [] -> forall v, ([dollar], v) ∉ leaves t) ->
  gl q t ≡ₚ leaves t /\ (pfL (leaves t) -> gl q t = reverse (leaves t)).
Proof.
  intros Hlast. induction t as [a pre lf kids IH] using art_ind'. intros p Hr Hq Hemp. pose proof Hr as Hr0.
  apply rep_inv in Hr as (n & Hn & Hlt & He & Hpl & Hlf & Hk1 & Hk2 & Hk3 & Hst & Hkids).
  assert (E1 : bfil (Bf q) (lfl lf) = lfl lf).
  { destruct lf as [[[la k] v]|]; [|done]. cbn. unfold Bf. cbn [fst]. rewrite hasPrefix_has.
    assert (Hin : (k, v) ∈ leaves (Art a pre (Some (la, k, v)) kids)) by (rewrite leaves_eq; left).
    destruct (rep_stored _ _ _ _ _ Hr0 Hin) as (k0 & -> & _). rewrite getKey_snoc, <- (has_prefix_term k0 q Hlast), (proj2 (has_prefix_true _ _)); [done|]. by eapply Hq. }
  assert (E2 : bfil (Ff q) (bfil (Gf q) (lfl lf)) = []).
  { apply bfil_none. intros [k v] Hin. apply elem_bfil in Hin as [Hin HG].
    assert (Hin' : (k, v) ∈ leaves (Art a pre lf kids)) by (rewrite leaves_eq; apply elem_of_app; by left).
    destruct (rep_stored _ _ _ _ _ Hr0 Hin') as (k0 & -> & _). unfold Gf in HG. cbn [fst] in HG. destruct q as [|c q].
    - unfold Ff. cbn [fst]. rewrite getKey_snoc. destruct k0 as [|c k0]; [|done]. exfalso. by apply (Hemp eq_refl v).
    - exfalso. cbn [length Nat.eqb] in HG. rewrite orb_false_r in HG. apply leb_klt in HG. apply HG. destruct (Hq _ _ Hin') as [z Ez]. rewrite Ez.
      rewrite <- (app_nil_r (c :: q)) at 1. apply klt_app. destruct z as [|z0 z]; [|done]. exfalso. rewrite app_nil_r in Ez. apply Hlast. rewrite <- Ez. by rewrite last_snoc. }
  cbn [gl]. rewrite E1, E2, app_nil_r, leaves_eq.
  assert (Hk : forall b t, (b, t) ∈ kids -> gl q t ≡ₚ leaves t /\ (pfL (leaves t) -> gl q t = reverse (leaves t))).
  { intros b t Hbt. eapply (IH b t Hbt); [by apply Hkids| |].
    - intros k v Hin. apply (Hq k v). by apply (kid_sub a pre lf kids b t).
    - intros E v Hin. apply (Hemp E v). by apply (kid_sub a pre lf kids b t). }
  split.
  - apply Permutation_app; [done|]. rewrite reverse_Permutation. unfold kleaves. clear -Hk. induction kids as [|[b t] kids IHk]; [done|].
    cbn [List.map concat snd]. apply Permutation_app; [apply (Hk b t); left|]. apply IHk. intros b' t' Hx. apply (Hk b' t'). by right.
  - intros Hpf. destruct (decide (kids = [])) as [Ek|Hne].
    + rewrite Ek. cbn. rewrite !app_nil_r. by destruct lf as [[[? ?] ?]|].
    + pose proof Hpf as Hpf0. apply (pf_bare _ _ _ _ _ _ Hr0) in Hpf0; [|done]. subst lf. cbn [lfl app].
      assert (Hkp : forall b t, (b, t) ∈ kids -> gl q t = reverse (leaves t)).
      { intros b t Hbt. apply (Hk b t Hbt). eapply pfL_sub; [|exact Hpf]. by apply (kid_sub a pre None kids b). }
      clear -Hkp. induction kids as [|[b t] kids IHk]; [done|]. cbn [List.map snd]. rewrite reverse_cons, concat_app, IHk, kleaves_cons, reverse_app by (intros; eapply Hkp; by right).
      f_equal. cbn [concat]. rewrite app_nil_r. apply (Hkp b t). left.
Qed.

Lemma unterm_reverse (L : list (bytes * V)) : unterm (reverse L) = reverse (unterm L).
Proof. unfold unterm. by rewrite fmap_reverse. Qed.
Lemma ss_reverse {A} (R : A -> A -> Prop) l : StronglySorted R l -> StronglySorted (fun x y => R y x) (reverse l).
Proof.
  induction 1 as [|x l Hs IH Hx]; [constructor|]. rewrite reverse_cons. apply ss_app; [done|repeat constructor|].
  intros y z Hy Hz. apply elem_of_list_singleton in Hz as ->. rewrite elem_of_reverse in Hy. rewrite Forall_forall in Hx. by apply Hx.
Qed.
Lemma bfil_sub f (L : list (bytes * V)) : bfil f L `sublist_of` L.
Proof. unfold bfil. induction L as [|x L IH]; [done|]. cbn. destruct (f x); by constructor. Qed.
Lemma contents_highL (t : art) (m : gmap (list nat) V) key : contents t m -> neat m key -> highL key (leaves t).
Proof.
  intros Hc Hp k v c x Hin. apply Hc in Hin as (k0 & -> & E). rewrite getKey_snoc. eapply Hp. eauto.
Qed.

(** SeekReverseLowerBound, when it returns. *)
Lemma holds_reverse_bound (b : bool) (h : heap V) (a : addr) (m : gmap (list nat) V) k spare ri : holds b h a m -> m <> ∅ ->
  orderly m -> neat m k -> narrow m -> seekReverseLowerBound h (newRevIter a) k spare = Ok ri ->
  exists l, yields (prev h) ri l /\ descending l /\ (forall k' v, (k', v) ∈ l <-> m !! k' = Some v /\ ~ klt k k').
Proof.
  intros Hh Hne Hhi Hk Hnar E. destruct Hh as [-> Hph|t Hr Hnd -> Hc]; [done|].
  pose proof (contents_ordered _ _ _ _ Hr Hc Hhi) as Hord. pose proof (fp_next _ _ _ Hr Hnd) as Hfp.
  unfold seekReverseLowerBound in E. cbn zeta in E. unfold getTreeKey, newRevIter, newIter in E. cbn [ri_it ri_exp it_node] in E.
  destruct (revLoop _ _ _ _ _ _ _ _ _ _) as [[st ex]| |] eqn:El; cbn [obind] in E; [|done..]. injection E as <-.
  apply (revLoop_spec k h spare t _ []) in El as (its & anc & -> & -> & Ho & _ & _ & Hsz & Hrl);
    [|done|done|by eapply contents_narrowL|by eapply contents_highL|intros _; split; [apply prefix_nil|done]].
  rewrite !app_nil_r. exists (unterm (rils (k ++ [dollar]) its)). split; [apply prev_yields; [done|lia]|]. rewrite Hrl, bfil_reverse, unterm_reverse. split.
  - apply (ss_reverse (fun x y : bytes * V => klt x.1 y.1)). apply unterm_ascending. eapply ss_sublist; [apply bfil_sub|done].
  - intros k' v. rewrite elem_of_reverse, unterm_elem, <- (contents_unterm t m k' v Hc), unterm_elem. unfold Ff. split.
    + intros (k1 & Hin & ->). apply elem_bfil in Hin as [Hin HF]. cbn [fst] in HF. rewrite getKey_snoc in HF. apply leb_klt in HF. eauto.
    + intros [(k1 & Hin & ->) HF]. exists k1. split; [|done]. apply elem_bfil. split; [done|]. cbn [fst]. rewrite getKey_snoc. by apply leb_klt.
Qed.

(** SeekPrefix and Previous, when some key has the prefix. *)
Lemma rev_tree (h : heap V) q m t t' p' nd : rep h [] t -> NoDup (fp t) -> contents t m -> last q <> Some dollar -> m !! [] = None ->
  rep h p' t' -> length (fp t') <= length (fp t) -> (forall kv, kv ∈ leaves t' -> q `prefix_of` kv.1) ->
  leaves t' `sublist_of` leaves t -> (forall kv, kv ∈ leaves t -> q `prefix_of` kv.1 -> kv ∈ leaves t') ->
  exists l, yields (prev h) (mkRI (mkIt q nd (Some [Some (RN (aroot t'))])) []) l /\ pairs_with m q l /\ (prefix_free m -> descending l).
Proof.
  intros Hr Hnd Hc Hlast Hemp Hr' Hf' Hall Hsub Hcov. pose proof (fp_next _ _ _ Hr Hnd) as Hfp.
  destruct (gl_A h q t' Hlast p' Hr') as [Hperm Heq].
  { intros k v Hin. by apply (Hall (k, v)). }
  { intros _ v Hin. assert (Hin2 : ([dollar], v) ∈ leaves t) by (eapply elem_of_submseteq; [exact Hin|by apply sublist_submseteq]).
    apply Hc in Hin2 as (k0 & Ek & Em). destruct k0 as [|c k0]; [congruence|]. destruct k0; done. }
  exists (unterm (gl q t')). split; [|split].
  - assert (E : gl q t' = rils q [RT t']) by (unfold rils; cbn [List.map concat ril]; by rewrite app_nil_r). rewrite E.
    apply (prev_yields h q [] nd [RT t']); [repeat constructor; [cbn; eauto|intros x _ Hx; by apply elem_of_nil in Hx]|].
    unfold rsz. cbn [List.map concat rfp]. rewrite app_nil_r. lia.
  - assert (Hp : unterm (gl q t') ≡ₚ unterm (leaves t')) by (by apply fmap_Permutation). split.
    + rewrite Hp. eapply NoDup_sublist; [|eapply unterm_NoDup, Hr]. unfold unterm. rewrite <- !list_fmap_compose. clear -Hsub. induction Hsub; cbn; by constructor.
    + intros k v. rewrite Hp, unterm_elem, <- (contents_unterm t m k v Hc), unterm_elem. split.
      * intros (k1 & Hin & ->). assert (Hin2 : (k1, v) ∈ leaves t) by (eapply elem_of_submseteq; [exact Hin|by apply sublist_submseteq]).
        split; [eauto|]. destruct (rep_stored _ _ _ _ _ Hr Hin2) as (k0 & -> & _). rewrite getKey_snoc, <- (has_prefix_term _ _ Hlast). apply has_prefix_true. apply (Hall _ Hin).
      * intros [(k1 & Hin & ->) HP]. exists k1. split; [|done]. apply Hcov; [done|]. cbn [fst]. destruct (rep_stored _ _ _ _ _ Hr Hin) as (k0 & -> & _).
        rewrite getKey_snoc in HP. apply has_prefix_true. by rewrite (has_prefix_term _ _ Hlast).
  - intros Hpf. rewrite Heq.
    + rewrite unterm_reverse. apply (ss_reverse (fun x y : bytes * V => klt x.1 y.1)). apply unterm_ascending. eapply ss_sublist; [exact Hsub|eapply contents_ordered; [done..|by apply prefix_free_orderly]].
    + eapply pfL_sub; [|by eapply contents_pfL]. intros x Hx. eapply elem_of_submseteq; [exact Hx|by apply sublist_submseteq].
Qed.
Lemma holds_reverse (b : bool) (h : heap V) (a : addr) (m : gmap (list nat) V) q : holds b h a m -> m !! [] = None ->
  is_bytes q -> last q <> Some dollar -> (exists k, is_Some (m !! k) /\ q `prefix_of` k) ->
  exists ri l, revSeekPrefix h (newRevIter a) q = Ok ri /\ yields (prev h) ri l /\ pairs_with m q l /\ (prefix_free m -> descending l).
Proof.
  intros Hh Hemp Hb Hlast (k & [v Hk] & Hq). destruct Hh as [-> Hph|t Hr Hnd -> Hc]; [done|].
  destruct (seekLoop_spec h q Hb t (length q + 2) [] Hr Hnd ltac:(cbn; lia)) as (t0 & p0 & E & _).
  assert (Hin : (k ++ [dollar], v) ∈ leaves t) by (apply Hc; eauto).
  destruct (seekLoop_all h q t Hb Hlast (length q + 2) [] _ Hr Hnd ltac:(exists (k ++ [dollar], v); split; [done|]; cbn; by apply prefix_app_r) E) as (t' & p' & Et & Hr' & Hf' & Hall & Hsub & Hcov).
  destruct (rev_tree h q m t t' p' (Some (RN (aroot t'))) Hr Hnd Hc Hlast Hemp Hr' Hf' Hall Hsub Hcov) as (l & Hy & Hrest).
  eexists _, l. split; [|split; [exact Hy|done]]. unfold revSeekPrefix, seekPrefix, newRevIter, newIter. cbn [ri_it ri_exp it_node]. cbn [length] in E. rewrite E, Et. done.
Qed.
Lemma holds_reverse_all (b : bool) (h : heap V) (a : addr) (m : gmap (list nat) V) : holds b h a m -> m !! [] = None -> m <> ∅ ->
  exists l, yields (prev h) (newRevIter a) l /\ l ≡ₚ map_to_list m /\ (prefix_free m -> descending l).
Proof.
  intros Hh Hemp Hne. destruct Hh as [-> Hph|t Hr Hnd -> Hc]; [done|].
  destruct (rev_tree h [] m t t [] (Some (RN (aroot t))) Hr Hnd Hc) as (l & Hy & Hpw & Hd); try done.
  { intros; apply prefix_nil. }
  exists l. split; [|split; [|done]].
  - inversion Hy as [? ? E|? ? ? ? E Hy']; subst; [eapply yields_nil; exact E|eapply yields_cons; [exact E|exact Hy']].
  - destruct Hpw as [Hnd' Hl]. apply NoDup_Permutation; [by eapply NoDup_fmap_1|apply NoDup_map_to_list|].
    intros [k v]. rewrite Hl, elem_of_map_to_list. split; [tauto|]. intros; split; [done|]. apply has_prefix_true. apply prefix_nil.
Qed.
End ReadRev.
