(** Iteration, path iteration, Minimum and Maximum on tame histories.  The proofs are in PropRead.v, with concrete
    cases. *)
From Verif Require Import ReadTop PropMap PropRead Refute.
From stdpp Require Import list.
Local Open Scope nat_scope.
Local Open Scope list_scope.


(** C12, C14, C16 on tame histories: SeekPrefix(p) and Next do not panic and yield exactly the stored pairs
    whose key starts with p, each once.  Excluded are a p that ends in '$' and full iteration of an empty tree. *)
Theorem C14_partial : forall {V} `{GoZero V} (os : list (op V)) d h t rs p,
  tame os d -> (N.of_nat (length os) < 2 ^ 64)%N -> build os h t rs ->
  is_bytes p -> last p <> Some dollar -> (ref_ops os ∅ = ∅ -> p <> []) ->
  exists l, iterates h (r_root t) p l /\ pairs_with (ref_ops os ∅) p l.
Proof. exact @C14_partial_proof. Qed.
Print Assumptions C14_partial.

(** C12 on tame histories: full iteration of a non-empty tree yields the contents, in some order. *)
Theorem C12_partial : forall {V} `{GoZero V} (os : list (op V)) d h t rs,
  tame os d -> (N.of_nat (length os) < 2 ^ 64)%N -> build os h t rs -> ref_ops os ∅ <> ∅ ->
  exists l, iterates h (r_root t) [] l /\ l ≡ₚ map_to_list (ref_ops os ∅).
Proof. exact @C12_partial_proof. Qed.
Print Assumptions C12_partial.

(** C13 on tame histories, if no stored key goes on with a byte below '$' after another stored key:
    iteration is in ascending order. *)
Theorem C13_partial : forall {V} `{GoZero V} (os : list (op V)) d h t rs p l,
  tame os d -> (N.of_nat (length os) < 2 ^ 64)%N -> build os h t rs -> orderly (ref_ops os ∅) ->
  is_bytes p -> last p <> Some dollar -> (ref_ops os ∅ = ∅ -> p <> []) -> iterates h (r_root t) p l -> ascending l.
Proof. exact @C13_partial_proof. Qed.
Print Assumptions C13_partial.

(** C17 on non-empty tame histories: Minimum and Maximum return stored pairs, and the extreme ones if
    no stored key goes on with a byte below '$' after another stored key. *)
Theorem C17_partial : forall {V} `{GoZero V} (os : list (op V)) d h t rs,
  tame os d -> (N.of_nat (length os) < 2 ^ 64)%N -> build os h t rs -> ref_ops os ∅ <> ∅ ->
  exists k v k' v', treeMinimum h t = Ok (Some (k, v)) /\ treeMaximum h t = Ok (Some (k', v')) /\
    ref_ops os ∅ !! k = Some v /\ ref_ops os ∅ !! k' = Some v' /\
    (orderly (ref_ops os ∅) -> least (ref_ops os ∅) k v /\ greatest (ref_ops os ∅) k' v').
Proof. exact @C17_partial_proof. Qed.
Print Assumptions C17_partial.

(** C19 on tame histories: the path iterator yields exactly the stored pairs whose key is a prefix of p, each
    once; shortest first if no stored key goes on with a byte below '$' after another stored key. *)
Theorem C19_partial : forall {V} `{GoZero V} (os : list (op V)) d h t rs p,
  tame os d -> (N.of_nat (length os) < 2 ^ 64)%N -> build os h t rs ->
  exists l, yields (pathNext h) (newPathIter (r_root t) p) l /\ pairs_on_path (ref_ops os ∅) p l /\
    (orderly (ref_ops os ∅) -> shortest_first l).
Proof. exact @C19_partial_proof. Qed.
Print Assumptions C19_partial.

(** C39 on tame histories, for prefix iteration: trees with the same contents yield the same pairs, and in the
    same order if no stored key goes on with a byte below '$' after another stored key. *)
Theorem C39_iter_partial : forall {V} `{GoZero V} (os os' : list (op V)) d d' h t rs h' t' rs' p,
  tame os d -> tame os' d' -> (N.of_nat (length os) < 2 ^ 64)%N -> (N.of_nat (length os') < 2 ^ 64)%N ->
  build os h t rs -> build os' h' t' rs' -> ref_ops os ∅ = ref_ops os' ∅ ->
  is_bytes p -> last p <> Some dollar -> (ref_ops os ∅ = ∅ -> p <> []) ->
  exists l l', iterates h (r_root t) p l /\ iterates h' (r_root t') p l' /\ l ≡ₚ l' /\ (orderly (ref_ops os ∅) -> l = l').
Proof. exact @C39_iter_partial_proof. Qed.
Print Assumptions C39_iter_partial.

(** C39 on tame histories, for the path iterator, Minimum and Maximum: trees with the same contents yield the same
    pairs on a path; if no stored key goes on with a byte below '$' after another stored key, then in the same
    order, and Minimum and Maximum agree. *)
Theorem C39_path_partial : forall {V} `{GoZero V} (os os' : list (op V)) d d' h t rs h' t' rs' p,
  tame os d -> tame os' d' -> (N.of_nat (length os) < 2 ^ 64)%N -> (N.of_nat (length os') < 2 ^ 64)%N ->
  build os h t rs -> build os' h' t' rs' -> ref_ops os ∅ = ref_ops os' ∅ ->
  exists l l', yields (pathNext h) (newPathIter (r_root t) p) l /\ yields (pathNext h') (newPathIter (r_root t') p) l' /\ l ≡ₚ l' /\
    (orderly (ref_ops os ∅) -> l = l').
Proof. exact @C39_path_partial_proof. Qed.
Print Assumptions C39_path_partial.

Theorem C39_ends_partial : forall {V} `{GoZero V} (os os' : list (op V)) d d' h t rs h' t' rs',
  tame os d -> tame os' d' -> (N.of_nat (length os) < 2 ^ 64)%N -> (N.of_nat (length os') < 2 ^ 64)%N ->
  build os h t rs -> build os' h' t' rs' -> ref_ops os ∅ = ref_ops os' ∅ -> ref_ops os ∅ <> ∅ -> orderly (ref_ops os ∅) ->
  treeMinimum h t = treeMinimum h' t' /\ treeMaximum h t = treeMaximum h' t'.
Proof. exact @C39_ends_partial_proof. Qed.
Print Assumptions C39_ends_partial.

Theorem C39_order_refuted : exists (os os' : list (op nat)) h t rs h' t' rs' l l' x x',
  Forall (fun o => is_insert o /\ valid_key (op_key o)) os /\ Forall (fun o => is_insert o /\ valid_key (op_key o)) os' /\
  build os h t rs /\ build os' h' t' rs' /\ ref_ops os ∅ = ref_ops os' ∅ /\
  iterates h (r_root t) [] l /\ iterates h' (r_root t') [] l' /\ l <> l' /\
  treeMinimum h t = Ok (Some x) /\ treeMinimum h' t' = Ok (Some x') /\ x <> x'.
Proof. exact C39_order_refuted_proof. Qed.
Print Assumptions C39_order_refuted.
