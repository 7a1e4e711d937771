(** Specification of the ordered reads. *)
From Verif Require Export Spec.
From stdpp Require Import sorting.
Local Open Scope nat_scope.

(** All bytes are above the terminator '$'. *)
Definition highbytes (k : bytes) : Prop := Forall (fun b => dollar < b) k.
Definition highmap {V} (m : gmap (list nat) V) : Prop := forall k, is_Some (m !! k) -> highbytes k.
(** Where k stops, stored keys go on with bytes above '$' only; where a stored key stops, k does not go on with a byte
    below '$'. *)
Definition neat {V} (m : gmap (list nat) V) (k : bytes) : Prop :=
  forall k' c x, is_Some (m !! k') -> (k' = k ++ c :: x -> dollar < c) /\ (k = k' ++ c :: x -> dollar <= c).
(** No stored key goes on with a byte below '$' after another stored key.  Bytes below '$' are allowed elsewhere. *)
Definition orderly {V} (m : gmap (list nat) V) : Prop :=
  forall k c x, is_Some (m !! k) -> is_Some (m !! (k ++ c :: x)) -> dollar <= c.
(** The same for the stored keys that are prefixes of q. *)
Definition orderly_along {V} (m : gmap (list nat) V) (q : bytes) : Prop :=
  forall k c x, is_Some (m !! k) -> is_Some (m !! (k ++ c :: x)) -> (k ++ c :: x) `prefix_of` q -> dollar <= c.
Lemma orderly_along_any {V} (m : gmap (list nat) V) q : orderly m -> orderly_along m q.
Proof. intros Hm k c x H1 H2 _. exact (Hm _ _ _ H1 H2). Qed.
Lemma highbytes_along {V} (m : gmap (list nat) V) q : highbytes q -> orderly_along m q.
Proof. intros Hq k c x _ _ [y ->]. unfold highbytes in Hq. rewrite !Forall_app, Forall_cons in Hq. lia. Qed.
Lemma highmap_weak {V} (m : gmap (list nat) V) : highmap m -> orderly m.
Proof. intros Hm k c x _ Hk. specialize (Hm _ Hk). unfold highbytes in Hm. rewrite Forall_app, Forall_cons in Hm. lia. Qed.
Lemma highmap_neat {V} (m : gmap (list nat) V) k : highmap m -> highbytes k -> neat m k.
Proof.
  intros Hm Hk k' c x Hk'. split; intros ->; [specialize (Hm _ Hk')|]; unfold highbytes in *; rewrite ?Forall_app, ?Forall_cons in *; lia.
Qed.
(** Pairs in strictly ascending order of their keys. *)
Definition ascending {V} (l : list (bytes * V)) : Prop := StronglySorted (fun x y => klt x.1 y.1) l.
(** Pairs in strictly descending order of their keys. *)
Definition descending {V} (l : list (bytes * V)) : Prop := StronglySorted (fun x y => klt y.1 x.1) l.
(** Pairs in strictly ascending order of the length of their keys. *)
Definition shortest_first {V} (l : list (bytes * V)) : Prop := StronglySorted (fun x y => length x.1 < length y.1) l.
(** The pairs of m whose key is a prefix of p, each once. *)
Definition pairs_on_path {V} (m : gmap (list nat) V) (p : bytes) (l : list (bytes * V)) : Prop :=
  NoDup l.*1 /\ forall k v, (k, v) ∈ l <-> (m !! k = Some v /\ has_prefix p k = true).
(** Ascending pairs of m, among them all whose key is not below k. *)
Definition pairs_from {V} (m : gmap (list nat) V) (k : bytes) (l : list (bytes * V)) : Prop :=
  ascending l /\ (forall k' v, (k', v) ∈ l -> m !! k' = Some v) /\ (forall k' v, m !! k' = Some v -> ~ klt k' k -> (k', v) ∈ l).
(** The pairs of m whose key is not above k, in descending order. *)
Definition pairs_upto {V} (m : gmap (list nat) V) (k : bytes) (l : list (bytes * V)) : Prop :=
  descending l /\ forall k' v, (k', v) ∈ l <-> m !! k' = Some v /\ ~ klt k k'.
(** The least and greatest keys. *)
Definition least {V} (m : gmap (list nat) V) (k : bytes) (v : V) : Prop :=
  m !! k = Some v /\ forall k', is_Some (m !! k') -> k' = k \/ klt k k'.
Definition greatest {V} (m : gmap (list nat) V) (k : bytes) (v : V) : Prop :=
  m !! k = Some v /\ forall k', is_Some (m !! k') -> k' = k \/ klt k' k.
(** No stored key is a proper prefix of another stored key. *)
Definition prefix_free {V} (m : gmap (list nat) V) : Prop :=
  forall k k', is_Some (m !! k) -> is_Some (m !! k') -> k `prefix_of` k' -> k = k'.
Lemma prefix_free_orderly {V} (m : gmap (list nat) V) : prefix_free m -> orderly m.
Proof.
  intros Hm k c x H1 H2. exfalso. specialize (Hm _ _ H1 H2 ltac:(by eexists)). apply (f_equal length) in Hm. rewrite app_length in Hm. cbn in Hm. lia.
Qed.
(** After every prefix the stored keys go on in at most 12 ways; the end of a key (the terminator) is one of them. *)
Definition narrow {V} (m : gmap (list nat) V) : Prop :=
  forall q, exists bs, length bs <= 12 /\ forall b k, is_Some (m !! k) -> (q ++ [b]) `prefix_of` k ++ [dollar] -> b ∈ bs.
(** Two stored keys differ in their first byte (so the root of the tree has an empty compressed path). *)
Definition forked {V} (m : gmap (list nat) V) : Prop :=
  exists c c' k k', c <> c' /\ is_Some (m !! (c :: k)) /\ is_Some (m !! (c' :: k')).
(** Wherever two stored keys agree on q and on 11 more bytes, some stored key leaves them inside these 11 bytes
    (so no compressed path is longer than the 10 bytes that a node stores). *)
Definition short_runs {V} (m : gmap (list nat) V) : Prop :=
  forall q w k k', length w = 11 -> k <> k' -> is_Some (m !! k) -> is_Some (m !! k') -> (q ++ w) `prefix_of` k -> (q ++ w) `prefix_of` k' ->
    exists j, is_Some (m !! j) /\ q `prefix_of` j /\ ~ (q ++ w) `prefix_of` j.
(** [hidden m k k']: k' is stored together with another key under q r x, where the run r is not empty, q r is shared with
    the bound k, all stored keys that extend q go on with r, and some of them do not go on with x. *)
Definition hidden {V} (m : gmap (list nat) V) (k k' : bytes) : Prop :=
  exists q r x j k'', r <> [] /\ (q ++ r) `prefix_of` k /\ (forall i, is_Some (m !! i) -> q `prefix_of` i -> (q ++ r) `prefix_of` i) /\
    is_Some (m !! j) /\ (q ++ r) `prefix_of` j /\ ~ (q ++ r ++ [x]) `prefix_of` j /\
    k'' <> k' /\ is_Some (m !! k'') /\ (q ++ r ++ [x]) `prefix_of` k' /\ (q ++ r ++ [x]) `prefix_of` k''.
(** [hollow os w]: the history deletes w while a proper extension of w is stored (which leaves a node with one child). *)
Definition hollow {V} `{GoZero V} (os : list (op V)) (w : bytes) : Prop :=
  exists i, os !! i = Some (ODelete w) /\ shadowed (ref_ops (take i os) ∅) w.
