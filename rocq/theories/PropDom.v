(** The map theorems for key sets that may contain '$', with examples (restated in Properties_Dom.v). *)
From Verif Require Import ReadTop Observe PropWorld PropMap PropRead SpecDom Refute.
From stdpp Require Import list.
Local Open Scope nat_scope.

Definition dom_of (D : bytes -> Prop) (HD : key_set D) : KeyDom := {| kd := D; kd_bytes := proj1 HD; kd_free := proj2 HD |}.

Section Facts.
Context {V : Type} `{GoZero V}.
Notation kmap := (gmap (list nat) V).
Variable D : bytes -> Prop.
Hypothesis HD : key_set D.

Lemma build_over_ok (os : list (op V)) d h t rs : tame_over D os d -> (N.of_nat (length os) < 2 ^ 64)%N -> build os h t rs ->
  exists x, tree_ok (D := dom_of D HD) (er_h h) t (ref_ops os ∅) x /\ x <= d /\ results_ok ∅ os rs /\ size (ref_ops os (∅ : kmap)) + x <= length os.
Proof.
  intros Ht Hl Hb. destruct (build_over (D := dom_of D HD) os d Ht Hl) as (h' & t' & rs' & x & Hb' & H1 & H2 & H3).
  destruct (build_det _ _ _ _ _ _ _ Hb Hb') as (-> & -> & ->). eauto.
Qed.
Lemma tame_over_inserts (os : list (op V)) : Forall (fun o => is_insert o /\ D (op_key o)) os -> exists d, tame_over D os d.
Proof.
  induction os as [|o os IH] using rev_ind; intros Ho; [exists 0; constructor|].
  apply Forall_app in Ho as [Hos Ho]. apply Forall_singleton in Ho as [Hi Hv]. destruct (IH Hos) as [d Hd].
  destruct o as [k v|k|k]; [|done..]. cbn in Hv.
  destruct (shadowed_dec (ref_ops os ∅) k); [exists (S d)|exists d]; (eapply tame_over_snoc; [exact Hd|]); split; auto.
Qed.
End Facts.

(** Any byte strings of one length: keys of a fixed width. *)
Lemma fixed_key_set n : key_set (fun k => is_bytes k /\ length k = n).
Proof.
  split; [by intros k []|]. intros k k' [_ H1] [_ H2] [x E]. assert (x = []) as ->.
  { apply (f_equal length) in E. rewrite !app_length in E. cbn in E. destruct x; [done|cbn in E; lia]. }
  rewrite app_nil_r in E. by apply app_inj_tail in E as [-> _].
Qed.

(** *** C61: on any set of keys that stays prefix-free when the terminator is appended, Inserts never panic and
    Get agrees with the finite map on every byte string. *)
Lemma C61_inserts_proof {V} `{GoZero V} (D : bytes -> Prop) (os : list (op V)) : key_set D ->
  Forall (fun o => is_insert o /\ D (op_key o)) os -> (N.of_nat (length os) < 2 ^ 64)%N ->
  exists h t rs, build os h t rs /\ forall k, is_bytes k -> treeGet h t k = Ok (ref_get (ref_ops os ∅) k).
Proof.
  intros HD Ho Hl. destruct (tame_over_inserts D os Ho) as [d Hd].
  destruct (build_over (D := dom_of D HD) os d Hd Hl) as (h & t & rs & x & Hb & H1 & H2 & H3).
  exists h, t, rs. split; [done|]. intros k. by eapply (tree_ok_get (D := dom_of D HD)).
Qed.
(** *** C61: keys of one length, with any bytes. *)
Lemma C61_fixed_proof {V} `{GoZero V} (n : nat) (os : list (op V)) :
  Forall (fun o => is_insert o /\ is_bytes (op_key o) /\ length (op_key o) = n) os -> (N.of_nat (length os) < 2 ^ 64)%N ->
  exists h t rs, build os h t rs /\ forall k, is_bytes k -> treeGet h t k = Ok (ref_get (ref_ops os ∅) k).
Proof. intros Ho Hl. by eapply (C61_inserts_proof _ os (fixed_key_set n)). Qed.
(** *** C61: transactions of Inserts of such keys and Deletes of stored keys do not panic, report the previous
    values, and leave the contents of the reference map; Len is bounded as in C06_partial. *)
Lemma C61_proof {V} `{GoZero V} (D : bytes -> Prop) (oss : list (list (op V))) d : key_set D -> tame_txns_over D oss d ->
  (N.of_nat (length (concat oss)) < 2 ^ 64)%N ->
  exists h t rs, build_txns oss h t rs /\ results_ok ∅ (concat oss) rs /\
    (N.of_nat (size (ref_ops (concat oss) ∅)) <= treeLen t <= N.of_nat (size (ref_ops (concat oss) ∅) + d))%N /\
    forall k, is_bytes k -> treeGet h t k = Ok (ref_get (ref_ops (concat oss) ∅) k).
Proof.
  intros HD Ht Hl. destruct (build_txns_over (D := dom_of D HD) oss d Ht Hl) as (h & t & rs & x & Hb & Hok & Hx & Hr & _). exists h, t, rs.
  split; [done|]. split; [done|]. split; [|intros k; by eapply (tree_ok_get (D := dom_of D HD))]. destruct Hok as (_ & Hsz & _). unfold treeLen. rewrite Hsz. lia.
Qed.
(** *** C61: Delete of a stored key after such a history. *)
Lemma C61_delete_proof {V} `{GoZero V} (D : bytes -> Prop) (os : list (op V)) d h t rs k v : key_set D ->
  tame_over D os d -> (N.of_nat (S (length os)) < 2 ^ 64)%N -> build os h t rs ->
  ref_ops os ∅ !! k = Some v -> deletable (ref_ops os ∅) k -> (d = 0 \/ delete k (ref_ops os ∅) <> ∅) ->
  exists h' t', treeDelete t k h = (Ok (t', (v, true)), h') /\ treeLen t' = (treeLen t - 1)%N /\ treeLen t <> 0%N /\
    treeGet h' t' k = Ok (go_zero, false) /\ forall k', is_bytes k' -> k' <> k -> treeGet h' t' k' = treeGet h t k'.
Proof.
  intros HD Ht Hl Hb Hk Hroom Hd. destruct (build_over_ok D HD os d h t rs Ht ltac:(lia) Hb) as (x & Hok & Hx & _ & Hbd).
  destruct (delete_ok (D := dom_of D HD) _ h t x k v Hok ltac:(lia) Hk Hroom) as (h' & t' & E & Hok'); [destruct Hd; [left; lia|by right]|].
  exists h', t'. split; [done|]. pose proof (holds_valid _ _ _ _ _ _ (proj1 Hok) Hk) as Hv.
  assert (Hkb : is_bytes k) by (by apply (kd_bytes (KeyDom := dom_of D HD))).
  assert (Hne : size (ref_ops os (∅ : gmap (list nat) V)) <> 0) by (intros E0; apply map_size_empty_iff in E0; by rewrite E0 in Hk).
  destruct Hok as (Hh & Hsz & Hx0). pose proof Hok' as (Hh' & Hsz' & Hx0').
  unfold treeLen. rewrite Hsz, Hsz'. rewrite map_size_delete, Hk. split; [lia|]. split; [lia|]. split.
  - rewrite (tree_ok_get (D := dom_of D HD) _ _ _ _ k Hok' Hkb). unfold ref_get. by rewrite lookup_delete.
  - intros k' Hk' Hnk. rewrite (tree_ok_get (D := dom_of D HD) _ _ _ _ k' Hok' Hk').
    rewrite (tree_ok_get (D := dom_of D HD) (ref_ops os ∅) h t x k') by (done || split; done).
    unfold ref_get. by rewrite lookup_delete_ne.
Qed.
(** *** C61: prefix iteration, the path iterator, Minimum and Maximum after such a history.  The order claims hold if
    no stored key goes on with a byte below '$' after another stored key. *)
Lemma C61_reads_proof {V} `{GoZero V} (D : bytes -> Prop) (os : list (op V)) d h t rs : key_set D ->
  tame_over D os d -> (N.of_nat (length os) < 2 ^ 64)%N -> build os h t rs ->
  (forall p, is_bytes p -> last p <> Some dollar -> (ref_ops os ∅ = ∅ -> p <> []) ->
    exists l, iterates h (r_root t) p l /\ pairs_with (ref_ops os ∅) p l /\ (orderly (ref_ops os ∅) -> ascending l)) /\
  (forall p, exists l, yields (pathNext h) (newPathIter (r_root t) p) l /\ pairs_on_path (ref_ops os ∅) p l /\
    (orderly (ref_ops os ∅) -> shortest_first l)) /\
  (ref_ops os ∅ <> ∅ -> exists k v k' v', treeMinimum h t = Ok (Some (k, v)) /\ treeMaximum h t = Ok (Some (k', v')) /\
    ref_ops os ∅ !! k = Some v /\ ref_ops os ∅ !! k' = Some v' /\
    (orderly (ref_ops os ∅) -> least (ref_ops os ∅) k v /\ greatest (ref_ops os ∅) k' v')).
Proof.
  intros HD Ht Hl Hb. destruct (build_over_ok D HD os d h t rs Ht Hl Hb) as (x & (Hh & _) & _). split; [|split].
  - intros p Hp Hlast Hne. destruct (holds_iterates _ _ _ _ p Hh Hp Hlast Hne) as (l & Hi & Hr). exists l. split; [by apply er_iterates|done].
  - intros p. destruct (holds_path _ _ _ _ p Hh) as (l & Hi & Hr). exists l. split; [by apply er_pathYields|done].
  - intros Hne. destruct (holds_minmax _ _ _ _ Hh Hne) as (k & v & k' & v' & H1 & H2 & H3).
    rewrite er_treeMinimum in H1. rewrite er_treeMaximum in H2. by exists k, v, k', v'.
Qed.

(** *** Executable checks, for the examples *)
Section Check.
Variable ks : list bytes.
Notation D := (fun k : bytes => k ∈ ks).
Definition key_setb : bool :=
  forallb (fun k => forallb (fun b => Nat.ltb b 256) k) ks &&
  forallb (fun k => forallb (fun k' => bool_decide (k = k') || negb (has_prefix (k' ++ [dollar]) (k ++ [dollar]))) ks) ks.
Lemma key_setb_ok : key_setb = true -> key_set D.
Proof.
  unfold key_setb. intros [H1 H2]%andb_prop. rewrite forallb_forall in H1. rewrite forallb_forall in H2. split.
  - intros k Hk%elem_of_list_In. specialize (H1 k Hk). rewrite forallb_forall in H1. apply Forall_forall. intros b Hb%elem_of_list_In.
    by apply Nat.ltb_lt, H1.
  - intros k k' Hk%elem_of_list_In Hk'%elem_of_list_In Hp. specialize (H2 k Hk). rewrite forallb_forall in H2. specialize (H2 k' Hk').
    apply orb_prop in H2 as [H2|H2]; [by apply bool_decide_eq_true in H2|]. apply has_prefix_true in Hp. by rewrite Hp in H2.
Qed.
Definition tame_over_opb (m : gmap (list nat) nat) (d : nat) (o : op nat) : option nat :=
  match o with
  | OInsert k _ => if bool_decide (k ∈ ks) then Some (if shadowedb m k then S d else d) else None
  | ODelete k => tame_opb m d o
  | ODeletePrefix _ => None
  end.
Lemma tame_over_opb_ok m d o d' : tame_over_opb m d o = Some d' -> tame_op_over D m d o d'.
Proof.
  destruct o as [k v|k|k]; cbn [tame_over_opb tame_op_over]; [| |done].
  - case_bool_decide as Hv; [|done]. intros [= <-]. split; [done|].
    destruct (shadowedb m k) eqn:Hs; [right; split; [by apply shadowedb_ok|done]|left]. split; [|done]. intros Hsh%shadowedb_ok. congruence.
  - intros E%tame_opb_ok. exact E.
Qed.
Fixpoint tame_overb (m : gmap (list nat) nat) (d : nat) (os : list (op nat)) : option nat :=
  match os with
  | [] => Some d
  | o :: os' => match tame_over_opb m d o with Some d' => tame_overb (ref_op o m) d' os' | None => None end
  end.
Lemma tame_overb_ok os0 d os d' : tame_over D os0 d -> tame_overb (ref_ops os0 ∅) d os = Some d' -> tame_over D (os0 ++ os) d'.
Proof.
  revert os0 d. induction os as [|o os IH]; intros os0 d Ht; cbn [tame_overb]; [intros [= <-]; by rewrite app_nil_r|].
  destruct (tame_over_opb _ d o) as [d1|] eqn:E; [|done]. intros E2. replace (os0 ++ o :: os) with ((os0 ++ [o]) ++ os) by by rewrite <- app_assoc.
  apply (IH _ d1); [|by rewrite ref_ops_snoc]. eapply tame_over_snoc; [exact Ht|]. by apply tame_over_opb_ok.
Qed.
Lemma tame_overb_start os d : tame_overb ∅ 0 os = Some d -> tame_over D os d.
Proof. intros E. apply (tame_overb_ok [] 0 os d); [constructor|done]. Qed.
End Check.

Local Open Scope string_scope.
(** Prices: "$" occurs at the start, inside and at the end of keys, and twice in a row. *)
Definition ex_dom : list bytes := B <$> ["a$b"; "a$c"; "ac"; "$$x"; "price$100"; "price$250"; "price-$"; "pricey"].
Definition ex_dom_ops : list (op nat) :=
  [I "a$b" 1; I "ac" 2; I "a$c" 3; I "$$x" 4; I "price$100" 5; I "pricey" 6; I "a$b" 7; D "ac"; I "price-$" 8; I "price$250" 9; D "price$100"].
Lemma ex_dom_set : key_set (fun k => k ∈ ex_dom).
Proof. apply key_setb_ok. vm_compute. reflexivity. Qed.
Lemma ex_dom_tame : tame_over (fun k => k ∈ ex_dom) ex_dom_ops 0.
Proof. apply tame_overb_start. vm_compute. reflexivity. Qed.
Example ex_C61 : key_set (fun k => k ∈ ex_dom) /\ tame_over (fun k => k ∈ ex_dom) ex_dom_ops 0 /\ ~ valid_key (B "a$b") /\
  ref_ops ex_dom_ops ∅ !! B "a$b" = Some 7 /\ ref_ops ex_dom_ops ∅ !! B "price-$" = Some 8 /\ ref_ops ex_dom_ops ∅ !! B "price$100" = None /\
  roomy (ref_ops ex_dom_ops ∅) /\
  exists h t rs, build ex_dom_ops h t rs /\ treeGet h t (B "a$b") = Ok (7, true) /\ treeGet h t (B "a") = Ok (0, false) /\
    treeGet h t (B "price$250") = Ok (9, true).
Proof.
  split; [apply ex_dom_set|]. split; [apply ex_dom_tame|]. split.
  { unfold valid_key. rewrite Forall_forall. intros Hx. destruct (Hx dollar) as [_ Hy]; [|done]. right. left. }
  split; [by vm_compute|]. split; [by vm_compute|]. split; [by vm_compute|]. split; [apply roomy_small; vm_compute; lia|].
  do 3 eexists. split; [apply build_intro; vm_compute; reflexivity|]. split_and!; vm_compute; reflexivity.
Qed.
Example ex_C61_fixed :
  Forall (fun o : op nat => is_insert o /\ is_bytes (op_key o) /\ length (op_key o) = 2) [I "$a" 1; I "$$" 2; I "a$" 3; I "aa" 4] /\
  exists h t rs, build [I "$a" 1; I "$$" 2; I "a$" 3; I "aa" 4] h t rs /\ treeGet h t (B "$$") = Ok (2, true) /\ treeGet h t (B "a$") = Ok (3, true).
Proof.
  split; [repeat constructor; vm_compute; lia|]. do 3 eexists. split; [apply build_intro; vm_compute; reflexivity|]. split; vm_compute; reflexivity.
Qed.
(** The histories over the keys without '$' are an instance. *)
Example ex_C61_valid {V} `{GoZero V} (os : list (op V)) d : key_set valid_key /\ (tame os d -> tame_over valid_key os d).
Proof. split; [split; [apply valid_bytes|apply valid_free]|apply tame_valid]. Qed.
