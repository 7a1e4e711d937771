(** Goroutines and reference maps (C56).  The proofs are in PropConcMap.v, with a concrete execution. *)
From Verif Require Import PropConcMap SpecConcMap SpecWorld SpecReads SpecSerial Machine.
From stdpp Require Import list.
Local Open Scope nat_scope.
Local Open Scope list_scope.


(** C56 Goroutines whose jobs are covered: every tree handed out answers as its reference map, which the job that made the tree has computed from the map of
    the tree it started from; the other goroutines leave no trace in it. *)
Theorem C56_maps : forall {V} `{GoZero V} (c : cfg V) js gs ns, recorded c js gs -> jobs_ok js ns ->
  exists ts, jobs_run js ts /\ length ts = length (c_pub c) /\
    forall i tr m d, c_pub c !! i = Some tr -> ts !! i = Some (m, d) -> answers_as (c_h c) tr m /\ exists x, x <= d /\ treeLen tr = N.of_nat (size m + x).
Proof. exact @C56_maps_proof. Qed.
Print Assumptions C56_maps.

(** A goroutine whose job is covered does not panic. *)
Theorem C56_ends : forall {V} `{GoZero V} (c : cfg V) js gs ns i g o t, recorded c js gs -> gs !! i = Some g -> jobs_ok (js ++ [g]) ns -> c_th c !! i = Some (Some (PRet o, t)) ->
  exists r, o = Ok r.
Proof. exact @C56_ends_proof. Qed.
Print Assumptions C56_ends.
