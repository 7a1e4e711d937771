(** Goroutines that share memory (C54).  The proofs are in PropRace.v, with a concrete execution. *)
From Verif Require Import PropRace.
From stdpp Require Import list.
Local Open Scope nat_scope.
Local Open Scope list_scope.


(** C54 The programs that the goroutines run are the functions of the model, as sequences of memory accesses. *)
Theorem C54_model : forall {V} `{GoZero V} (s : st V) (tr : rtree) (k : bytes) (v : V),
  run (ptxnInsert k v) s = txnInsert k v s /\ run (ptxnDelete k) s = txnDelete k s /\ run (ptxnDeletePrefix k) s = txnDeletePrefix k s /\
  run pcommit s = commit s /\ run (pgetFrom (r_root tr) k) s = (getFrom (s_h s) (r_root tr) k, s) /\
  (forall t h, newTxn tr (s_h s) = (Ok t, h) -> run (pnewTxn tr) s = (Ok tt, mkS h t)) /\
  (forall t h, cloneTree tr (s_h s) = (Ok t, h) -> run (cloner tr) s = (Ok (Some t), mkS h (s_t s))).
Proof. exact @C54_model_proof. Qed.
Print Assumptions C54_model.

(** C54 No data race: a cell that the next command of one goroutine writes is not accessed by the next command of another one,
    and is in no tree that has been handed out. *)
Theorem C54_race : forall {V} `{GoZero V} (c : cfg V) i j ti tj B C (ci : cmd V B) (cj : cmd V C) ki kj a,
  reachable c -> i <> j -> c_th c !! i = Some (Some (Do ci ki, ti)) -> c_th c !! j = Some (Some (Do cj kj, tj)) -> writes ci a -> ~ touches cj a.
Proof. exact @C54_race_proof. Qed.
Print Assumptions C54_race.

Theorem C54_published : forall {V} `{GoZero V} (c : cfg V) i t B (cm : cmd V B) k tr a,
  reachable c -> c_th c !! i = Some (Some (Do cm k, t)) -> tr ∈ c_pub c -> reach (c_h c) (r_root tr) a -> ~ writes cm a.
Proof. exact @C54_published_proof. Qed.
Print Assumptions C54_published.

(** C54 Snapshots: whatever the goroutines do, every read of a tree that has been handed out keeps its result. *)
Theorem C54_snapshot : forall {V} `{GoZero V} (c c' : cfg V) tr,
  reachable c -> tr ∈ c_pub c -> msteps c c' -> reads_same (r_root tr) (c_h c) (c_h c').
Proof. exact @C54_snapshot_proof. Qed.
Print Assumptions C54_snapshot.

(** C54 Readers: a reader that runs meanwhile on a tree that has been handed out, follows pointers from its root and is stopped
    and resumed anywhere, gets what it would have got alone at the start. *)
Theorem C54_reader : forall {V} `{GoZero V} {A} (c c' : cfg V) hs tr (p : prog V A) o,
  reachable c -> tr ∈ c_pub c -> trace c hs c' -> follows (eq (r_root tr)) p -> obs hs p o -> fst (run p (seen (c_h c))) = o.
Proof. exact @C54_reader_proof. Qed.
Print Assumptions C54_reader.

Theorem C54_get : forall {V} `{GoZero V} (c c' : cfg V) hs tr k o,
  reachable c -> tr ∈ c_pub c -> trace c hs c' -> obs hs (pgetFrom (r_root tr) k) o -> o = getFrom (c_h c) (r_root tr) k.
Proof. exact @C54_get_proof. Qed.
Print Assumptions C54_get.
