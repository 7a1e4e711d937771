(** The memory that a tree holds (restated in Properties_Size.v). *)
From Verif Require Import Thin ReadTop ReadWalk PropWorld PropMap Refute PropRead PropWalk SpecSize.
From stdpp Require Import list relations.
Local Open Scope nat_scope.

Section Size.
Context {V : Type} `{GoZero V}.
Notation art := (art V).
Notation kmap := (gmap (list nat) V).

(** The nodes, the leaves and the thin nodes of a tree. *)
Fixpoint nodes (t : art) : list addr := match t with Art a _ _ kids => a :: concat (List.map (fun bt => nodes (snd bt)) kids) end.
Fixpoint lfs (t : art) : list addr := match t with Art _ _ lf kids => lfa lf ++ concat (List.map (fun bt => lfs (snd bt)) kids) end.
Definition knodes (kids : list (nat * art)) : list addr := concat (List.map (fun bt => nodes (snd bt)) kids).
Definition klfs (kids : list (nat * art)) : list addr := concat (List.map (fun bt => lfs (snd bt)) kids).
Definition one (lf : option (addr * bytes * V)) (kids : list (nat * art)) : bool := match lf, kids with None, [_] => true | _, _ => false end.
Fixpoint thins (p : bytes) (t : art) : list bytes :=
  match t with Art _ pre lf kids => (if one lf kids then [p ++ pre] else []) ++ concat (List.map (fun bt => thins (p ++ pre ++ [fst bt]) (snd bt)) kids) end.
Definition kthins (q : bytes) (kids : list (nat * art)) : list bytes := concat (List.map (fun bt => thins (q ++ [fst bt]) (snd bt)) kids).

Lemma elem_concat {A B} (f : A -> list B) (l : list A) y : y ∈ concat (List.map f l) <-> exists x, x ∈ l /\ y ∈ f x.
Proof.
  induction l as [|x l IH]; cbn; [split; [intros Hx; by apply elem_of_nil in Hx|intros (x & Hx & _); by apply elem_of_nil in Hx]|].
  rewrite elem_of_app, IH. split.
  - intros [Hy|(x' & Hx' & Hy)]; [exists x; split; [left|done]|exists x'; split; [by right|done]].
  - intros (x' & Hx' & Hy). apply elem_of_cons in Hx' as [->|Hx']; [by left|right; eauto].
Qed.
Lemma elem_knodes x kids : x ∈ knodes kids <-> exists b t, (b, t) ∈ kids /\ x ∈ nodes t.
Proof. unfold knodes. rewrite elem_concat. split; [intros ([b t] & ? & ?); eauto|intros (b & t & ? & ?); by exists (b, t)]. Qed.
Lemma elem_klfs x kids : x ∈ klfs kids <-> exists b t, (b, t) ∈ kids /\ x ∈ lfs t.
Proof. unfold klfs. rewrite elem_concat. split; [intros ([b t] & ? & ?); eauto|intros (b & t & ? & ?); by exists (b, t)]. Qed.
Lemma elem_kthins q w kids : w ∈ kthins q kids <-> exists b t, (b, t) ∈ kids /\ w ∈ thins (q ++ [b]) t.
Proof. unfold kthins. rewrite elem_concat. split; [intros ([b t] & ? & ?); eauto|intros (b & t & ? & ?); by exists (b, t)]. Qed.
Lemma nodes_eq a pre lf kids : nodes (Art a pre lf kids) = a :: knodes kids.
Proof. done. Qed.
Lemma lfs_eq a pre lf kids : lfs (Art a pre lf kids) = lfa lf ++ klfs kids.
Proof. done. Qed.
Lemma thins_eq p a pre lf kids : thins p (Art a pre lf kids) = (if one lf kids then [p ++ pre] else []) ++ kthins (p ++ pre) kids.
Proof. cbn [thins]. unfold kthins. f_equal. f_equal. apply List.map_ext. intros [b t]. cbn. by rewrite <- app_assoc. Qed.
Lemma nodes_root t : aroot t ∈ nodes t.
Proof. destruct t. left. Qed.

Lemma lfs_leaves t : length (lfs t) = length (leaves t).
Proof.
  induction t as [a pre lf kids IH] using art_ind'. rewrite lfs_eq, leaves_eq, !app_length. f_equal; [by destruct lf as [[[? ?] ?]|]|].
  induction kids as [|[b t] kids IHk]; [done|]. change (klfs ((b, t) :: kids)) with (lfs t ++ klfs kids). rewrite kleaves_cons, !app_length. f_equal.
  - apply (IH b t). left.
  - apply IHk. intros b' t' Hx. apply (IH b' t'). by right.
Qed.

Lemma thins_thin p t w : w ∈ thins p t -> thin p t w.
Proof.
  revert p. induction t as [a pre lf kids IH] using art_ind'. intros p. rewrite thins_eq, elem_of_app, elem_kthins. intros [Hw|(b & t & Hbt & Hw)].
  - destruct (one lf kids) eqn:Eo; [|by apply elem_of_nil in Hw]. apply elem_of_list_singleton in Hw as ->. unfold one in Eo.
    destruct lf as [lf|]; [done|]. destruct kids as [|[b t] [|? ?]]; try done. constructor.
  - eapply thin_kid; [exact Hbt|]. apply (IH b t Hbt). by rewrite <- app_assoc in Hw.
Qed.
Lemma thins_pre p t w : w ∈ thins p t -> p `prefix_of` w.
Proof.
  revert p. induction t as [a pre lf kids IH] using art_ind'. intros p. rewrite thins_eq, elem_of_app, elem_kthins. intros [Hw|(b & t & Hbt & Hw)].
  - destruct (one lf kids); [|by apply elem_of_nil in Hw]. apply elem_of_list_singleton in Hw as ->. by exists pre.
  - apply (IH b t Hbt) in Hw as [x ->]. exists (pre ++ [b] ++ x). by rewrite <- !app_assoc.
Qed.
Lemma thins_NoDup (h : heap V) p t : rep h p t -> NoDup (thins p t).
Proof.
  revert p. induction t as [a pre lf kids IH] using art_ind'. intros p Hr.
  pose proof (rep_sorted _ _ _ _ _ _ Hr) as Hnd.
  apply rep_inv in Hr as (n & Hn & Hlt & He & Hpl & Hlf & Hk1 & Hk2 & Hk3 & Hst & Hkids).
  rewrite thins_eq, NoDup_app. split; [destruct (one lf kids); [apply NoDup_singleton|constructor]|]. split.
  - intros w Hw Hw'. destruct (one lf kids); [|by apply elem_of_nil in Hw]. apply elem_of_list_singleton in Hw as ->.
    apply elem_kthins in Hw' as (b & t & Hbt & Hw). apply thins_pre in Hw as [x Hx]. apply (f_equal length) in Hx. rewrite !app_length in Hx. cbn in Hx. lia.
  - set (q := p ++ pre). assert (Hkids' : forall b t, (b, t) ∈ kids -> rep h (q ++ [b]) t) by (intros; unfold q; rewrite <- app_assoc; by apply Hkids).
    clear -Hkids' IH Hnd. induction kids as [|[b t] kids IHk]; [constructor|]. change (kthins q ((b, t) :: kids)) with (thins (q ++ [b]) t ++ kthins q kids).
    cbn in Hnd. apply NoDup_cons in Hnd as [Hb Hnd]. apply NoDup_app. split; [apply (IH b t); [left|apply Hkids'; left]|]. split.
    + intros w Hw Hw'. apply elem_kthins in Hw' as (b' & t' & Hbt' & Hw'). apply thins_pre in Hw as [x ->]. apply thins_pre in Hw' as [y E].
      rewrite <- !app_assoc in E. apply app_inv_head in E. cbn in E. injection E as -> _. apply Hb. apply elem_of_list_fmap. by exists (b', t').
    + apply IHk; [|done|]; [intros b' t' Hx; apply (IH b' t'); by right|intros b' t' Hx; apply Hkids'; by right].
Qed.

(** A tree whose inner nodes have two entries has fewer than twice as many nodes as leaves; every other node adds one. *)
Lemma nodes_bound (h : heap V) p t : rep h p t -> S (length (nodes t)) <= 2 * length (leaves t) + length (thins p t).
Proof.
  revert p. induction t as [a pre lf kids IH] using art_ind'. intros p Hr.
  apply rep_inv in Hr as (n & Hn & Hlt & He & Hpl & Hlf & Hk1 & Hk2 & Hk3 & Hst & Hkids).
  rewrite nodes_eq, leaves_eq, thins_eq. cbn [length]. rewrite !app_length.
  assert (Hs : length (knodes kids) + length kids <= 2 * length (kleaves kids) + length (kthins (p ++ pre) kids)).
  { assert (Hkids' : forall b t, (b, t) ∈ kids -> rep h ((p ++ pre) ++ [b]) t) by (intros; rewrite <- app_assoc; by apply Hkids).
    clear -Hkids' IH. induction kids as [|[b t] kids IHk]; [cbn; lia|]. change (knodes ((b, t) :: kids)) with (nodes t ++ knodes kids).
    change (kthins (p ++ pre) ((b, t) :: kids)) with (thins ((p ++ pre) ++ [b]) t ++ kthins (p ++ pre) kids). rewrite kleaves_cons, !app_length. cbn [length].
    pose proof (IH b t ltac:(left) _ (Hkids' b t ltac:(left))).
    assert (length (knodes kids) + length kids <= 2 * length (kleaves kids) + length (kthins (p ++ pre) kids)); [|lia].
    apply IHk; [intros b' t' Hx; apply (IH b' t'); by right|intros b' t' Hx; apply Hkids'; by right]. }
  destruct kids as [|[b1 t1] [|[b2 t2] kids]].
  - destruct (Hk2 eq_refl) as (la & k & v & -> & _). cbn in *. lia.
  - destruct lf as [[[la k] v]|]; cbn [one lfl length] in *; lia.
  - cbn [length] in Hs. destruct lf as [[[la k] v]|]; cbn [one lfl length] in *; lia.
Qed.

(** Every pointer from a node of the tree without left-over pointers leads into the tree. *)
Lemma nodes_edge (h : heap V) p t x n c : rep h p t -> x ∈ nodes t -> h_nodes h !! x = Some n -> Some c ∈ n_children n -> (c ∈ stale n -> False) -> c ∈ nodes t.
Proof.
  revert p. induction t as [a pre lf kids IH] using art_ind'. intros p Hr Hx Hnx Hc Hs.
  apply rep_inv in Hr as (n0 & Hn & Hlt & He & Hpl & Hlf & Hk1 & Hk2 & Hk3 & Hst & Hkids).
  rewrite nodes_eq in Hx |- *. apply elem_of_cons in Hx as [->|Hx]; right.
  - assert (n0 = n) as -> by congruence. destruct (enc_children_elem _ _ _ He Hc) as [Hin|Hin]; [|by destruct Hs].
    apply elem_of_list_fmap in Hin as ([b c'] & E & Hin). cbn in E. subst c'. apply elem_of_list_fmap in Hin as ([b' t] & E & Hin). injection E as -> ->.
    apply elem_knodes. exists b', t. split; [done|apply nodes_root].
  - apply elem_knodes in Hx as (b & t & Hbt & Hx). apply elem_knodes. exists b, t. split; [done|]. by eapply (IH b t Hbt); [apply Hkids| | | |].
Qed.
Lemma nodes_leaf (h : heap V) p t x n c : rep h p t -> x ∈ nodes t -> h_nodes h !! x = Some n -> n_leaf n = Some c -> c ∈ lfs t.
Proof.
  revert p. induction t as [a pre lf kids IH] using art_ind'. intros p Hr Hx Hnx Hc.
  apply rep_inv in Hr as (n0 & Hn & Hlt & He & Hpl & Hlf & Hk1 & Hk2 & Hk3 & Hst & Hkids).
  rewrite nodes_eq in Hx. rewrite lfs_eq. apply elem_of_app. apply elem_of_cons in Hx as [->|Hx].
  - left. assert (n0 = n) as -> by congruence. rewrite Hc in Hlf. destruct lf as [[[la k] v]|]; [|done]. destruct Hlf as ([= ->] & _). left.
  - right. apply elem_knodes in Hx as (b & t & Hbt & Hx). apply elem_klfs. exists b, t. split; [done|]. by eapply (IH b t Hbt); [apply Hkids| | |].
Qed.

Lemma rtc_in {A} (R : relation A) (P : A -> Prop) x y : (forall a b, P a -> R a b -> P b) -> P x -> rtc R x y -> P y.
Proof. intros Hs Hx Hr. induction Hr as [x|x y z Hxy Hr IH]; [done|]. eauto. Qed.
Lemma at_most_list (l : list addr) (P : addr -> Prop) : (forall x, P x -> x ∈ l) -> at_most (length l) P.
Proof. intros Hp l' Hn Hl. apply submseteq_length. apply NoDup_submseteq; [done|]. auto. Qed.
Lemma at_most_le n n' (P : addr -> Prop) : n <= n' -> at_most n P -> at_most n' P.
Proof. intros Hle Hp l' Hn Hl. specialize (Hp l' Hn Hl). lia. Qed.

Lemma leaves_size (h : heap V) (p : bytes) (t : art) (m : kmap) : rep h p t -> contents t m -> length (leaves t) = size m.
Proof.
  intros Hr Hc. pose proof (unterm_NoDup h p t Hr) as Hnd. assert (Hp : unterm (leaves t) ≡ₚ map_to_list m).
  { apply NoDup_Permutation; [by eapply NoDup_fmap_1|apply NoDup_map_to_list|]. intros [k v]. by rewrite (contents_unterm t m k v Hc), elem_of_map_to_list. }
  apply Permutation_length in Hp. unfold unterm in Hp. rewrite fmap_length in Hp. exact Hp.
Qed.

Lemma er_node (h : heap V) x n : h_nodes h !! x = Some n -> h_nodes (er_h h) !! x = Some (er_n n).
Proof. intros E. by rewrite er_lookup, E. Qed.

Lemma stale_slot n es i c : enc n es -> n_children n !! i = Some (Some c) -> (n_kind n = K4 \/ n_kind n = K16 -> i < n_nch n) -> c ∈ es.*2.
Proof.
  intros He Hi Hk. destruct (enc_children_elem n es c He) as [?|Hs]; [by apply elem_of_list_lookup_2 in Hi|done|].
  destruct (sortedkind (n_kind n)) eqn:Ek; [|by unfold stale in Hs; rewrite Ek in Hs; apply elem_of_nil in Hs].
  destruct (enc_sorted_dec _ _ He Ek) as (R & R' & HK & HC & HR & Hcap & Hst & Hn). rewrite Hn in Hk. rewrite HC in Hi.
  rewrite lookup_app_l in Hi; [|rewrite !fmap_length; apply Hk; by destruct (n_kind n); [left|right|..]].
  rewrite list_lookup_fmap in Hi. destruct (es.*2 !! i) as [c'|] eqn:E; [|done]. cbn in Hi. injection Hi as ->. by eapply elem_of_list_lookup_2.
Qed.
Lemma nodes_live (h : heap V) p t x n i c : rep h p t -> x ∈ nodes t -> h_nodes h !! x = Some n -> n_children n !! i = Some (Some c) ->
  (n_kind n = K4 \/ n_kind n = K16 -> i < n_nch n) -> c ∈ nodes t.
Proof.
  revert p. induction t as [a pre lf kids IH] using art_ind'. intros p Hr Hx Hnx Hc Hs.
  apply rep_inv in Hr as (n0 & Hn & Hlt & He & Hpl & Hlf & Hk1 & Hk2 & Hk3 & Hst & Hkids).
  rewrite nodes_eq in Hx |- *. apply elem_of_cons in Hx as [->|Hx]; right.
  - assert (n0 = n) as -> by congruence. pose proof (stale_slot _ _ _ _ He Hc Hs) as Hin.
    apply elem_of_list_fmap in Hin as ([b c'] & E & Hin). cbn in E. subst c'. apply elem_of_list_fmap in Hin as ([b' t] & E & Hin). injection E as -> ->.
    apply elem_knodes. exists b', t. split; [done|apply nodes_root].
  - apply elem_knodes in Hx as (b & t & Hbt & Hx). apply elem_knodes. exists b, t. split; [done|]. by eapply (IH b t Hbt); [apply Hkids| | | |].
Qed.
End Size.

(** *** C63 on histories of insertions of valid keys: a tree with n stored keys holds fewer than 2n nodes and at most n
    leaves, whatever pointers one follows. *)
Lemma C63_partial_proof {V} `{GoZero V} (os : list (op V)) h t rs :
  Forall (fun o => is_insert o /\ valid_key (op_key o)) os -> (N.of_nat (length os) < 2 ^ 64)%N -> build os h t rs -> ref_ops os ∅ <> ∅ ->
  at_most (2 * size (ref_ops os ∅) - 1) (holds_node h (r_root t)) /\ at_most (size (ref_ops os ∅)) (holds_leaf h (r_root t)).
Proof.
  intros Ho Hl Hb Hne. destruct (inserts_holds os h t rs Ho Hl Hb) as [_ Hcl]. destruct (tame_inserts os Ho) as [d Ht].
  destruct (build_slim os d h t rs Ht Hl Hb) as [?|(tr & Hr & Hnd & Hroot & Hc & Hth)]; [done|].
  rewrite <- (leaves_size _ _ _ _ Hr Hc).
  assert (Hno : thins [] tr = []).
  { destruct (thins [] tr) as [|w l] eqn:E; [done|]. destruct (Hth w) as (i & Hi & _); [apply thins_thin; rewrite E; left|].
    rewrite Forall_lookup in Ho. by destruct (Ho _ _ Hi) as [[] _]. }
  pose proof (nodes_bound _ _ _ Hr) as Hbd. rewrite Hno in Hbd. cbn [length] in Hbd.
  assert (Hin : forall x, holds_node h (r_root t) x -> x ∈ nodes tr).
  { intros x Hx. apply (rtc_in (edge h) (fun x => x ∈ nodes tr) (r_root t) x); [|rewrite Hroot; apply nodes_root|exact Hx]. clear x Hx. intros a b Ha (n & Hn & Hbn). apply er_node in Hn.
    eapply nodes_edge; [exact Hr|exact Ha|exact Hn|exact Hbn|]. rewrite (cl_stale _ (proj1 (Hcl _ _ Hn))). intros Hx. by apply elem_of_nil in Hx. }
  split; [eapply at_most_le; [|by apply at_most_list]; lia|]. rewrite <- lfs_leaves. apply at_most_list.
  intros x (y & n & Hy & Hn & Hx). apply er_node in Hn. eapply nodes_leaf; [exact Hr|by apply Hin|exact Hn|exact Hx].
Qed.

(** *** C63 on tame histories: a tree with n stored keys has at most n live leaves, and fewer than 2n live nodes and one
    more for each key that was deleted while a longer key with that prefix was stored. *)
Lemma C63_live_partial_proof {V} `{GoZero V} (os : list (op V)) d h t rs (ws : list bytes) :
  tame os d -> (N.of_nat (length os) < 2 ^ 64)%N -> build os h t rs -> ref_ops os ∅ <> ∅ -> (forall w, hollow os w -> w ∈ ws) ->
  at_most (2 * size (ref_ops os ∅) - 1 + length ws) (live_node h (r_root t)) /\ at_most (size (ref_ops os ∅)) (live_leaf h (r_root t)).
Proof.
  intros Ht Hl Hb Hne Hws. destruct (build_slim os d h t rs Ht Hl Hb) as [?|(tr & Hr & Hnd & Hroot & Hc & Hth)]; [done|].
  rewrite <- (leaves_size _ _ _ _ Hr Hc). pose proof (nodes_bound _ _ _ Hr) as Hbd.
  assert (length (thins [] tr) <= length ws) as Hlen.
  { apply submseteq_length, NoDup_submseteq; [by eapply thins_NoDup|]. intros w Hw. by apply Hws, Hth, thins_thin. }
  assert (Hin : forall x, live_node h (r_root t) x -> x ∈ nodes tr).
  { intros x Hx. apply (rtc_in (live_edge h) (fun x => x ∈ nodes tr) (r_root t) x); [|rewrite Hroot; apply nodes_root|exact Hx]. clear x Hx. intros a b Ha (n & i & Hn & Hbn & Hi). apply er_node in Hn.
    eapply nodes_live; [exact Hr|exact Ha|exact Hn|exact Hbn|exact Hi]. }
  split; [eapply at_most_le; [|by apply at_most_list]; lia|]. rewrite <- lfs_leaves. apply at_most_list.
  intros x (y & n & Hy & Hn & Hx). apply er_node in Hn. eapply nodes_leaf; [exact Hr|by apply Hin|exact Hn|exact Hx].
Qed.

(** ** Computing the nodes that a tree holds *)
Fixpoint collect {V} (fuel : nat) (h : heap V) (a : addr) : list addr :=
  match fuel with
  | 0 => []
  | S f => a :: match h_nodes h !! a with Some n => concat (List.map (collect f h) (omap id (n_children n))) | None => [] end
  end.
Lemma collect_held {V} f (h : heap V) a x : x ∈ collect f h a -> holds_node h a x.
Proof.
  revert a. induction f as [|f IH]; intros a Hx; [by apply elem_of_nil in Hx|]. cbn [collect] in Hx. apply elem_of_cons in Hx as [->|Hx]; [apply rtc_refl|].
  destruct (h_nodes h !! a) as [n|] eqn:En; [|by apply elem_of_nil in Hx]. apply elem_concat in Hx as (b & Hb & Hx).
  apply elem_of_list_omap in Hb as ([y|] & Hy & Ey); [|done]. injection Ey as ->. eapply rtc_l; [|by apply IH]. by exists n.
Qed.
Definition held_list {V} (h : heap V) (a : addr) : list addr := remove_dups (collect 20 h a).

Lemma held_list_ok {V} (h : heap V) a : NoDup (held_list h a) /\ forall x, x ∈ held_list h a -> holds_node h a x.
Proof. split; [apply NoDup_remove_dups|]. intros x Hx. unfold held_list in Hx. rewrite elem_of_remove_dups in Hx. by eapply collect_held. Qed.

(** *** C63 in full is false after Deletes: a tree with one stored key can consist of seven nodes (deleting a key that has
    stored extensions leaves its node in place). *)
Lemma C63_refuted_proof : exists (os : list (op nat)) d h t rs l,
  tame os d /\ build os h t rs /\ size (ref_ops os ∅) = 1 /\ NoDup l /\ (forall x, x ∈ l -> holds_node h (r_root t) x) /\ length l = 7.
Proof.
  exists [I "a" 1; I "ab" 2; I "abc" 3; I "abcd" 4; I "abcde" 5; I "abcdef" 6; I "abcdefg" 7;
          D "a"; D "ab"; D "abc"; D "abcd"; D "abcde"; D "abcdef"].
  eexists _, _, _, _, (held_list _ _). split; [apply tameb_start; by vm_compute|split; [apply build_intro; vc|split; [vc|split; [apply held_list_ok|split; [apply held_list_ok|]]]]].
  vc.
Qed.
(** *** C63: after Deletes a tree may go on holding the leaf of a deleted key, with its value. *)
Lemma C63_leak_refuted_proof : exists (os : list (op nat)) d h t rs x lf k,
  tame os d /\ build os h t rs /\ holds_leaf h (r_root t) x /\ h_leaves h !! x = Some lf /\ l_key lf = k ++ [dollar] /\ ref_ops os ∅ !! k = None.
Proof.
  exists [I "a" 1; I "b" 2; I "c" 3; I "d" 4; I "dd" 5; D "a"; D "d"]. do 4 eexists. exists 15. eexists. exists (B "d").
  split; [apply tameb_start; by vm_compute|split; [apply build_intro; vc|split]].
  - exists 22. eexists. split; [|split; [vc|vc]]. eapply (collect_held 20). apply (bool_decide_unpack _). by vm_compute.
  - split; [vc|]. split; vc.
Qed.

(** *** Concrete cases *)
Example ex_C63 : let os := [I "a" 1; I "b" 2; I "ab" 3; I "ab" 4] in
  Forall (fun o => is_insert o /\ valid_key (op_key o)) os /\ ref_ops os ∅ <> ∅ /\ size (ref_ops os ∅) = 3 /\
  exists h t rs, build os h t rs /\ length (held_list h (r_root t)) = 4.
Proof. cbn zeta. split; [valid|]. split; [by vm_compute|]. split; [vc|]. do 3 eexists. split; [apply build_intro; vc|]. vc. Qed.
Example ex_C63_live : (exists d, tame [I "a" 1; I "ab" 2; I "abc" 3; D "ab"] d) /\ (forall w, hollow [I "a" 1; I "ab" 2; I "abc" 3; D "ab"] w -> w ∈ [B "ab"]).
Proof.
  split; [eexists; apply tameb_start; by vm_compute|]. intros w (i & Hi & _). destruct i as [|[|[|[|i]]]]; try discriminate Hi. injection Hi as <-. left.
Qed.
