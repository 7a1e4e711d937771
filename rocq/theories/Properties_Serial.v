(** Goroutines that share memory behave as if run one after the other (C55).  The proofs are in PropSerial.v, with a concrete execution. *)
From Verif Require Import PropSerial SpecReads SpecSerial Machine.
From stdpp Require Import list.
Local Open Scope nat_scope.
Local Open Scope list_scope.


(** C55 Every execution has a record, which says which jobs have ended and in which order; and a record is one of an execution. *)
Theorem C55_recorded : forall {V} `{GoZero V} (c : cfg V), reachable c <-> exists js gs, recorded c js gs.
Proof. exact @C55_recorded_proof. Qed.
Print Assumptions C55_recorded.

(** Serializability.  Run the jobs that have ended one after the other, in the order in which they have ended, in a memory of their own.  This hands
    out as many trees, and no read whatsoever distinguishes the i-th tree from the i-th tree of the concurrent execution. *)
Theorem C55_serial : forall {V} `{GoZero V} (c : cfg V) js gs, recorded c js gs ->
  length (serial js).2 = length (c_pub c) /\
  forall i tr T, c_pub c !! i = Some tr -> (serial js).2 !! i = Some T -> reads_alike (c_h c) tr (serial js).1 T.
Proof. exact @C55_serial_proof. Qed.
Print Assumptions C55_serial.

(** No goroutine accesses a cell that does not exist. *)
Theorem C55_access : forall {V} `{GoZero V} (c : cfg V) i B (cm : cmd V B) k t, reachable c -> c_th c !! i = Some (Some (Do cm k, t)) ->
  exists b s, sem cm (mkS (c_h c) t) = (Ok b, s).
Proof. exact @C55_access_proof. Qed.
Print Assumptions C55_access.

(** A goroutine panics only if it panics when it is run alone, after the jobs that have ended by then. *)
Theorem C55_panic : forall {V} `{GoZero V} (c : cfg V) js gs i t g, recorded c js gs -> c_th c !! i = Some (Some (PRet Panic, t)) -> gs !! i = Some g ->
  exists T, (serial js).2 !! jbase g = Some T /\ (run (jprog g T) (mkS (serial js).1 (noTxn T))).1 = Panic.
Proof. exact @C55_panic_proof. Qed.
Print Assumptions C55_panic.

(** Every goroutine ends, with a result or a panic: none is stuck in a search, and each one can be run to its end, at any time, no matter where the
    others are. *)
Theorem C55_ends : forall {V} `{GoZero V} (c : cfg V) i p t, reachable c -> c_th c !! i = Some (Some (p, t)) ->
  (forall o, p = PRet o -> o <> NoFuel) /\ exists c' o t', msteps c c' /\ c_th c' !! i = Some (Some (PRet o, t')) /\ o <> NoFuel /\
    forall j, j <> i -> c_th c' !! j = c_th c !! j.
Proof. exact @C55_ends_proof. Qed.
Print Assumptions C55_ends.

(** Every read of a tree that was handed out ends, at every moment, and every iteration over it gives one sequence of results. *)
Theorem C55_reads : forall {V} `{GoZero V} (c : cfg V) i tr, reachable c -> c_pub c !! i = Some tr -> reads_total (c_h c) tr.
Proof. exact @C55_reads_proof. Qed.
Print Assumptions C55_reads.
