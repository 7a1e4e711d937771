(** Two roots with equal nodes (up to the padding of the partial prefix) read alike.  This is what a clone is. *)
From Verif Require Export Observe.
From stdpp Require Import list.
Local Open Scope nat_scope.

Section Twin.
Context {V : Type} `{GoZero V}.

Lemma clonePartial_lookup p i x : i < maxPrefixLen -> p !! i = Some x -> clonePartial p !! i = Some x.
Proof.
  intros Hi Hp. unfold clonePartial, go_copy. rewrite replicate_length. cbn [take app]. rewrite take_0. cbn [app].
  pose proof (lookup_lt_Some _ _ _ Hp). assert (i < length p `min` (maxPrefixLen - 0)) by lia.
  rewrite lookup_app_l; [by rewrite lookup_take|]. rewrite take_length. lia.
Qed.
Lemma cmp_loop_clone p key depth m : m <= maxPrefixLen -> forall fuel idx r,
  cmp_loop fuel idx m p key depth = Ok r -> cmp_loop fuel idx m (clonePartial p) key depth = Ok r.
Proof.
  intros Hm. induction fuel as [|fuel IH]; intros idx r; cbn [cmp_loop]; [done|]. destruct (Nat.ltb_spec idx m); [|done].
  destruct (p !! idx) as [a|] eqn:Ea; [|done]. rewrite (clonePartial_lookup p idx a) by (done || lia).
  destruct (key !! (depth + idx)); [|done]. destruct (Nat.eqb _ _); [apply IH|done].
Qed.
Lemma checkPrefix_clone p plen key depth r : checkPrefix p plen key depth = Ok r -> checkPrefix (clonePartial p) plen key depth = Ok r.
Proof. apply cmp_loop_clone. lia. Qed.

(** Same result whenever the first returns. *)
Definition imp {A} (o o' : outcome A) : Prop := forall x, o = Ok x -> o' = Ok x.
Lemma imp_refl {A} (o : outcome A) : imp o o.
Proof. by intros x. Qed.
Lemma imp_bind {A B} (o o' : outcome A) (k k' : A -> outcome B) : imp o o' -> (forall x, imp (k x) (k' x)) -> imp (obind o k) (obind o' k').
Proof. intros Ho Hk r. destruct o as [x| |]; cbn; [|done..]. intros E. rewrite (Ho x eq_refl). by apply Hk. Qed.
Lemma imp_bind_r {A B} (o : outcome A) (k k' : A -> outcome B) : (forall x, imp (k x) (k' x)) -> imp (obind o k) (obind o k').
Proof. apply imp_bind, imp_refl. Qed.

Variable h : heap V.
Variables a b : addr.
Variable n : inode.
Hypothesis Ha : h_nodes h !! a = Some n.
Hypothesis Hb : h_nodes h !! b = Some (set_partial n (clonePartial (n_partial n))).
Notation n' := (set_partial n (clonePartial (n_partial n))).


(** what Get makes of the result of a search *)
Definition value_of (r : sres) : outcome (V * bool) :=
  match r with
  | Found la => match h_leaves h !! la with Some l => Ok (l_val l, true) | None => Panic end
  | Missing _ => Ok (go_zero, false)
  end.
Lemma tw_exit key : imp (obind (searchExit h key a n) value_of) (obind (searchExit h key b n') value_of).
Proof.
  unfold searchExit. change (ownLeaf h key n') with (ownLeaf h key n). change (n_children n') with (n_children n).
  destruct (ownLeaf h key n) as [[la|]| |]; cbn; [apply imp_refl| |done..].
  destruct (scanChildren h key (n_children n)) as [[la|]| |]; cbn; [apply imp_refl..|done|done].
Qed.
Lemma tw_get k : imp (getFrom h a k) (getFrom h b k).
Proof.
  unfold getFrom. set (key := getTreeKey k). unfold search_fuel. rewrite Nat.add_comm. cbn [Nat.add search].
  change (imp (obind (search (S (S (length key))) h a key 0) value_of) (obind (search (S (S (length key))) h b key 0) value_of)).
  cbn [search]. rewrite Ha, Hb. change (isLeafN n') with (isLeafN n). change (ownLeaf h key n') with (ownLeaf h key n).
  change (n_plen n') with (n_plen n). change (findChild n') with (findChild n). change (n_partial n') with (clonePartial (n_partial n)).
  destruct (if isLeafN n then ownLeaf h key n else Ok None) as [[la|]| |]; cbn [obind]; [apply imp_refl| |done..].
  destruct (Nat.ltb 0 (n_plen n)); cbn [obind andb].
  - destruct (checkPrefix (n_partial n) (n_plen n) key 0) as [pl| |] eqn:Ec; cbn [obind]; [|done..]. rewrite (checkPrefix_clone _ _ _ _ _ Ec). cbn [obind].
    destruct (negb _); [apply tw_exit|]. destruct (key !! _); [|apply tw_exit].
    destruct (findChild n _) as [[[ca|] i]| |]; cbn [obind]; [apply imp_refl|apply tw_exit|done..].
  - destruct (key !! _); [|apply tw_exit].
    destruct (findChild n _) as [[[ca|] i]| |]; cbn [obind]; [apply imp_refl|apply tw_exit|done..].
Qed.
Lemma tw_longest k : imp (longestPrefixFrom h a k) (longestPrefixFrom h b k).
Proof.
  unfold longestPrefixFrom. rewrite Ha, Hb. apply imp_bind; [|intros; apply imp_refl].
  set (key := getTreeKey k). unfold search_fuel. rewrite Nat.add_comm. cbn [Nat.add lpLoop]. rewrite Ha, Hb.
  change (n_plen n') with (n_plen n). change (findChild n') with (findChild n). change (n_partial n') with (clonePartial (n_partial n)).
  change (n_leaf n') with (n_leaf n). change (n_children n') with (n_children n).
  destruct (Nat.ltb 0 (n_plen n)); [|apply imp_refl]. apply imp_bind; [intros r; apply checkPrefix_clone|intros; apply imp_refl].
Qed.
Lemma tw_min fuel : minimum fuel h (Some a) = minimum fuel h (Some b).
Proof. destruct fuel; [done|]. cbn [minimum]. by rewrite Ha, Hb. Qed.
Lemma tw_max fuel : maximum fuel h (Some a) = maximum fuel h (Some b).
Proof. destruct fuel; [done|]. cbn [maximum]. by rewrite Ha, Hb. Qed.
Lemma tw_prefixMismatch key depth : imp (prefixMismatch h a n key depth) (prefixMismatch h b n' key depth).
Proof.
  unfold prefixMismatch. change (n_plen n') with (n_plen n). change (n_partial n') with (clonePartial (n_partial n)).
  rewrite tw_min. apply imp_bind; [intros r; apply cmp_loop_clone; lia|intros; apply imp_refl].
Qed.
(** the seek stops at the same node, or at the two roots *)
Lemma tw_seek fuel p depth x : seekLoop fuel h a p depth = Ok x -> exists y, seekLoop fuel h b p depth = Ok y /\ (y = x \/ (x = a /\ y = b)).
Proof.
  destruct fuel as [|fuel]; [done|]. cbn [seekLoop]. rewrite Ha, Hb.
  change (isLeafN n') with (isLeafN n). change (n_plen n') with (n_plen n). change (findChild n') with (findChild n).
  assert (Hrest : forall (q : bool * nat),
    (let (stop, depth0) := q in if stop then Ok a else match p !! depth0 with None => Ok a | Some c => let? q := findChild n c in let (child, _) := q in match child with Some ca => seekLoop fuel h ca p (depth0 + 1) | None => Ok a end end) = Ok x ->
    exists y, (let (stop, depth0) := q in if stop then Ok b else match p !! depth0 with None => Ok b | Some c => let? q := findChild n c in let (child, _) := q in match child with Some ca => seekLoop fuel h ca p (depth0 + 1) | None => Ok b end end) = Ok y /\ (y = x \/ (x = a /\ y = b))).
  { intros [stop d]. destruct stop; [intros [= <-]; eauto|]. destruct (p !! d); [|intros [= <-]; eauto].
    destruct (findChild n _) as [[[ca|] i]| |]; cbn [obind]; [intros E; eauto|intros [= <-]; eauto|done..]. }
  destruct (negb (isLeafN n) && Nat.ltb 0 (n_plen n)); cbn [obind]; [|exact (Hrest (false, depth))].
  destruct (prefixMismatch h a n p depth) as [m| |] eqn:Em; cbn [obind]; [|done..]. rewrite (tw_prefixMismatch _ _ _ Em). cbn [obind].
  destruct (Nat.ltb m (n_plen n)); cbn [obind]; [exact (Hrest (true, depth))|exact (Hrest (false, depth + n_plen n))].
Qed.
Lemma tw_nextLoop fuel p st : nextLoop fuel h p (Some (RN a) :: st) = nextLoop fuel h p (Some (RN b) :: st).
Proof. destruct fuel; [done|]. cbn [nextLoop]. by rewrite Ha, Hb. Qed.
Lemma tw_pathNextLoop fuel p st : pathNextLoop fuel h p (Some (RN a) :: st) = pathNextLoop fuel h p (Some (RN b) :: st).
Proof. destruct fuel; [done|]. cbn [pathNextLoop]. by rewrite Ha, Hb. Qed.
Lemma tw_recWalk {A} (fn : bytes -> V -> A -> A * bool) fuel acc : recursiveWalk fn fuel h a acc = recursiveWalk fn fuel h b acc.
Proof. destruct fuel; [done|]. cbn [recursiveWalk]. by rewrite Ha, Hb. Qed.

(** Next never looks at the node of the iterator *)
Lemma yields_node (it it' : IterOps.iter) l : it_path it = it_path it' -> it_stack it = it_stack it' -> yields (iterNext h) it l -> yields (iterNext h) it' l.
Proof.
  intros Hp Hs Hy. revert it' Hp Hs. induction Hy as [it jt E|it x jt l E Hy IH]; intros it' Hp Hs; unfold iterNext in E; rewrite Hp, Hs in E;
    destruct (nextLoop _ _ _ _) as [[r st]| |] eqn:En; cbn [obind] in E; try done; injection E as -> <-.
  - eapply yields_nil. unfold iterNext. rewrite En. done.
  - eapply yields_cons; [unfold iterNext; rewrite En; done|]. by apply IH.
Qed.
Lemma tw_iterates p l : iterates h a p l -> iterates h b p l.
Proof.
  intros (it & Es & Hy). unfold seekPrefix in Es. cbn [it_node newIter] in Es. destruct (seekLoop _ h a p 0) as [x| |] eqn:El; [|done..]. injection Es as <-.
  destruct (tw_seek _ _ _ _ El) as (y & Ey & Hxy). exists (mkIt p (Some (RN y)) (Some [Some (RN y)])). split.
  - unfold seekPrefix. cbn [it_node newIter]. by rewrite Ey.
  - destruct Hxy as [->|[-> ->]]; [done|]. inversion Hy as [it jt E|it z jt l' E Hy']; subst; unfold iterNext in E; cbn [it_path it_stack stackOf default from_option id] in E;
      rewrite tw_nextLoop in E; destruct (nextLoop _ h p _) as [[r st]| |] eqn:En; cbn [obind] in E; try done; injection E as -> <-.
    + eapply yields_nil. unfold iterNext. cbn [it_path it_stack stackOf default from_option id]. rewrite En. done.
    + eapply yields_cons; [unfold iterNext; cbn [it_path it_stack stackOf default from_option id]; rewrite En; done|]. by eapply yields_node; [..|exact Hy'].
Qed.
Lemma tw_path p l : yields (pathNext h) (newPathIter a p) l -> yields (pathNext h) (newPathIter b p) l.
Proof.
  assert (E : pathNext h (newPathIter a p) = pathNext h (newPathIter b p)). { unfold pathNext. cbn [pi_path pi_stack newPathIter]. by rewrite tw_pathNextLoop. }
  intros Hy. inversion Hy; subst; rewrite E in *; [by eapply yields_nil|by eapply yields_cons].
Qed.
End Twin.
