(** Iteration over memories that need not represent a tree: what Next yields from a node is determined by the leaves and
    the child arrays alone. *)
From Verif Require Export ReadRep DelPre.
From stdpp Require Export list.
Local Open Scope nat_scope.

Section Cov.
Context {V : Type} `{GoZero V}.
Notation art := (art V).
Notation entry := (option ref).
Notation lentry := (option (addr * bytes * V)).

(** [ownrep h o lf]: the leaf field o of a node holds what lf says. *)
Definition ownrep (h : heap V) (o : option addr) (lf : lentry) : Prop :=
  match lf with
  | None => o = None
  | Some (la, k, v) => o = Some la /\ exists l, h_leaves h !! la = Some l /\ l_key l = k /\ l_val l = v
  end.
Lemma leafrep_own h o lf : leafrep h o lf -> ownrep h o lf.
Proof. destruct lf as [[[la k] v]|]; cbn; [|done]. by intros (? & _ & ?). Qed.

(** [cov h F sz a L]: below a there are at most sz nodes, all in F, and their leaves are L in the order of iteration. *)
Inductive cov (h : heap V) (F : addr -> Prop) : nat -> addr -> list (bytes * V) -> Prop :=
| cov_node a n lf (xs : list (addr * nat * list (bytes * V))) : F a -> h_nodes h !! a = Some n -> ownrep h (n_leaf n) lf -> (forall x, x ∈ lfa lf -> F x) ->
    iterChildren n = (fun x => Some x.1.1) <$> xs -> (n_leaf n = None -> minChild n = Ok (head xs.*1.*1)) -> (forall x, x ∈ xs -> cov h F x.1.2 x.1.1 x.2) ->
    cov h F (S (sum_list xs.*1.*2)) a (lfl lf ++ concat xs.*2).
Lemma cov_mono (h h' : heap V) (F F' : addr -> Prop) sz a L :
  (forall x, F x -> same_cell h h' x /\ F' x) -> cov h F sz a L -> cov h' F' sz a L.
Proof.
  intros HF. induction 1 as [a n lf xs Ha Hn Hlf Hfl Hit Hmin Hxs IH]. destruct (HF _ Ha) as [[E1 _] Ha'].
  apply (cov_node _ _ a n lf xs); [done|congruence| |intros x Hx; by destruct (HF x (Hfl x Hx))|done|done|done].
  destruct lf as [[[la k] v]|]; [|done]. destruct Hlf as (E & l & Hl & Hk). split; [done|]. exists l. split; [|done].
  destruct (HF la (Hfl la ltac:(left))) as [[_ E2] _]. congruence.
Qed.

Notation stack := (list (addr * nat * list (bytes * V))).
Definition cents (xs : stack) : list entry := (fun x => Some (RN x.1.1)) <$> xs.
Definition csz (xs : stack) : nat := sum_list xs.*1.*2.
Definition csl (xs : stack) : list (bytes * V) := concat xs.*2.
Lemma csz_app xs ys : csz (xs ++ ys) = csz xs + csz ys.
Proof. unfold csz. rewrite !fmap_app. induction (xs.*1.*2) as [|x l IH]; [done|]. cbn. lia. Qed.
Lemma csl_app xs ys : csl (xs ++ ys) = csl xs ++ csl ys.
Proof. unfold csl. by rewrite fmap_app, concat_app. Qed.

Lemma cov_next (h : heap V) F fuel : forall xs, (forall x, x ∈ xs -> cov h F x.1.2 x.1.1 x.2) -> csz xs < fuel ->
  match csl xs with
  | [] => nextLoop fuel h [] (cents xs) = Ok (None, [])
  | kv :: L => exists xs', nextLoop fuel h [] (cents xs) = Ok (Some (getKey kv.1, kv.2), cents xs') /\
                 (forall x, x ∈ xs' -> cov h F x.1.2 x.1.1 x.2) /\ csz xs' <= csz xs /\ csl xs' = L
  end.
Proof.
  induction fuel as [|fuel IH]; intros xs Hs Hf; [lia|]. destruct xs as [|[[a sz] L] xs]; [done|].
  pose proof (Hs _ ltac:(left)) as Hc. cbn [fst snd] in Hc. inversion Hc as [a' n lf ys Ha Hn Hlf Hfl Hit Hmin Hys]; subst.
  cbn [nextLoop cents fmap list_fmap fst snd]. rewrite Hn. fold (cents xs).
  replace ((RNo <$> iterChildren n) ++ cents xs) with (cents (ys ++ xs)).
  2:{ unfold cents. rewrite fmap_app, Hit. f_equal. unfold RNo. rewrite <- list_fmap_compose. done. }
  assert (Hs2 : forall x, x ∈ ys ++ xs -> cov h F x.1.2 x.1.1 x.2).
  { intros x Hx. apply elem_of_app in Hx as [Hx|Hx]; [by apply Hys|]. apply Hs. by right. }
  assert (Hsz : csz ((a, S (sum_list ys.*1.*2), lfl lf ++ concat ys.*2) :: xs) = S (csz (ys ++ xs))) by (rewrite csz_app; done).
  assert (Hsl : csl ((a, S (sum_list ys.*1.*2), lfl lf ++ concat ys.*2) :: xs) = lfl lf ++ csl (ys ++ xs)).
  { rewrite csl_app. unfold csl. cbn. by rewrite <- app_assoc. }
  rewrite Hsl, Hsz in *. specialize (IH (ys ++ xs) Hs2 ltac:(lia)). destruct lf as [[[la k] v]|]; cbn [lfl app].
  - destruct Hlf as (-> & l & -> & <- & <-). destruct (l_key l) as [|b x] eqn:El; cbn [has_prefix]; exists (ys ++ xs); cbn [fst snd]; split_and!; try done; lia.
  - cbn in Hlf. rewrite Hlf. destruct (csl (ys ++ xs)); [done|]. destruct IH as (xs' & E & H1 & H2 & H3). exists xs'. split_and!; [done..|lia|done].
Qed.
Lemma cov_iter (h : heap V) F nd xs : (forall x, x ∈ xs -> cov h F x.1.2 x.1.1 x.2) -> csz xs <= h_next h ->
  yields (iterNext h) (mkIt [] nd (Some (cents xs))) (unterm (csl xs)).
Proof.
  remember (csl xs) as L eqn:EL. revert xs EL. induction L as [|kv L IH]; intros xs EL Hs Hl.
  - pose proof (cov_next h F (walk_fuel h) xs Hs) as Hn. rewrite <- EL in Hn. eapply yields_nil. unfold iterNext. cbn [it_path it_stack stackOf default id].
    rewrite Hn; [cbn; done|]. unfold walk_fuel. lia.
  - pose proof (cov_next h F (walk_fuel h) xs Hs) as Hn. rewrite <- EL in Hn. destruct Hn as (xs' & E & Hs' & Hl' & EL'); [unfold walk_fuel; lia|].
    cbn. eapply yields_cons; [|apply (IH xs'); [done..|lia]]. unfold iterNext. cbn [it_path it_stack stackOf default id]. rewrite E. done.
Qed.
Lemma cov_min (h : heap V) F : forall fuel sz a L, cov h F sz a L -> sz < fuel -> exists o, minimum fuel h (Some a) = Ok o /\ forall la, o = Some la -> is_Some (h_leaves h !! la).
Proof.
  induction fuel as [|fuel IH]; intros sz a L Hc Hf; [lia|]. inversion Hc as [a' n lf ys Ha Hn Hlf Hfl Hit Hmin Hys]; subst. cbn [minimum]. rewrite Hn.
  assert (Hl : forall la, n_leaf n = Some la -> is_Some (h_leaves h !! la)).
  { intros la E. destruct lf as [[[la' k] v]|]; cbn in Hlf; [|congruence]. destruct Hlf as (E' & l & Hl & _). assert (la' = la) as -> by congruence. eauto. }
  destruct (isLeafN n); [eauto|]. destruct (n_leaf n) as [la|]; [eauto|]. rewrite Hmin by done. cbn [obind]. destruct ys as [|[[c s] L'] ys]; cbn [head fmap list_fmap fst]; [eauto|].
  apply (IH s c L'); [by apply (Hys (c, s, L')); left|]. cbn in Hf. lia.
Qed.
(** Full iteration from a node: SeekPrefix with the empty prefix stays there. *)
Lemma cov_iterates (h : heap V) F sz a L : cov h F sz a L -> sz <= h_next h ->
  iterates h a [] (unterm L).
Proof.
  intros Hc Hsz. exists (mkIt [] (Some (RN a)) (Some [Some (RN a)])). split.
  - unfold seekPrefix, newIter. cbn [it_node length Nat.add]. cbn [seekLoop]. pose proof Hc as Hc0. destruct Hc as [a n lf ys Ha Hn Hlf Hfl Hit Hmin Hys]. rewrite Hn.
    assert (E : prefixMismatch h a n [] 0 = Ok 0).
    { unfold prefixMismatch. cbn [length]. rewrite Nat.min_0_r. cbn [cmp_loop obind Nat.ltb Nat.leb Nat.sub]. destruct (Nat.ltb maxPrefixLen (n_plen n)); [|done].
      destruct (cov_min _ _ (walk_fuel h) _ _ _ Hc0) as (o & -> & Ho); [unfold walk_fuel; lia|]. cbn [obind]. destruct o as [la|]; [|done].
      destruct (Ho la eq_refl) as [l ->]. rewrite Nat.min_0_r. done. }
    destruct (negb (isLeafN n) && Nat.ltb 0 (n_plen n)) eqn:Eb; cbn [obind]; [|done]. rewrite E. cbn [obind]. destruct (Nat.ltb_spec 0 (n_plen n)); [done|].
    rewrite andb_false_r in Eb. done.
  - replace L with (csl [(a, sz, L)]) by (unfold csl; cbn; by rewrite app_nil_r).
    apply (cov_iter h F _ [(a, sz, L)]).
    + intros x Hx. apply elem_of_list_singleton in Hx as ->. done.
    + unfold csz. cbn. lia.
Qed.

(** What DeletePrefix leaves of the leaves of a tree: the leaf nodes with the prefix go. *)
Fixpoint prune (hit : bytes -> bool) (t : art) : list (bytes * V) :=
  match t with
  | Art _ _ lf kids =>
      match kids with
      | [] => filter (fun kv => hit kv.1 = false) (lfl lf)
      | _ => lfl lf ++ concat (List.map (fun bt => prune hit bt.2) kids)
      end
  end.
Lemma prune_eq hit a pre lf kids : kids <> [] -> prune hit (Art a pre lf kids) = lfl lf ++ concat (List.map (fun bt => prune hit bt.2) kids).
Proof. by destruct kids. Qed.
End Cov.
