(** The histories of Spec.v over other sets of keys than those without '$'. *)
From Verif Require Export Spec.

(** Keys of D are byte strings, and no key of D followed by the terminator is a prefix of another one
    followed by the terminator. *)
Definition key_set (D : bytes -> Prop) : Prop :=
  (forall k, D k -> is_bytes k) /\ forall k k', D k -> D k' -> (k ++ [dollar]) `prefix_of` (k' ++ [dollar]) -> k = k'.

Section Dom.
Context {V : Type} `{GoZero V}.
Variable D : bytes -> Prop.

(** As [tame_op], with Inserts of keys of D. *)
Definition tame_op_over (m : kmap V) (d : nat) (o : op V) (d' : nat) : Prop :=
  match o with
  | OInsert k _ => D k /\ ((~ shadowed m k /\ d' = d) \/ (shadowed m k /\ d' = S d))
  | ODelete k => is_Some (m !! k) /\ deletable m k /\ d' = d /\ (d = 0 \/ delete k m <> ∅)
  | ODeletePrefix _ => False
  end.
Inductive tame_over : list (op V) -> nat -> Prop :=
| tame_over_nil : tame_over [] 0
| tame_over_snoc os d o d' : tame_over os d -> tame_op_over (ref_ops os ∅) d o d' -> tame_over (os ++ [o]) d'.
Inductive tame_in_over (m : kmap V) (d : nat) : list (op V) -> nat -> Prop :=
| tame_in_over_nil : tame_in_over m d [] d
| tame_in_over_snoc os d1 o d2 : tame_in_over m d os d1 -> tame_op_over (ref_ops os m) d1 o d2 ->
    (os <> [] -> ref_ops os m = ∅ -> forall k v, o <> OInsert k v) -> tame_in_over m d (os ++ [o]) d2.
Inductive tame_txns_over : list (list (op V)) -> nat -> Prop :=
| tame_txns_over_nil : tame_txns_over [] 0
| tame_txns_over_snoc oss d os d' : tame_txns_over oss d -> tame_in_over (ref_ops (concat oss) ∅) d os d' ->
    tame_txns_over (oss ++ [os]) d'.
End Dom.

Lemma tame_in_valid {V} `{GoZero V} (m : kmap V) d os d' : tame_in m d os d' -> tame_in_over valid_key m d os d'.
Proof. induction 1; [constructor|]. by eapply tame_in_over_snoc. Qed.
Lemma tame_txns_valid {V} `{GoZero V} (oss : list (list (op V))) d : tame_txns oss d -> tame_txns_over valid_key oss d.
Proof. induction 1; [constructor|]. eapply tame_txns_over_snoc; [done|]. by apply tame_in_valid. Qed.
Lemma tame_valid {V} `{GoZero V} (os : list (op V)) d : tame os d -> tame_over valid_key os d.
Proof. induction 1; [constructor|]. by eapply tame_over_snoc. Qed.
