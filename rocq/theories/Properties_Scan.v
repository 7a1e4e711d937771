(** Walk, DFS and LongestPrefix in histories with many trees and in concurrent executions.  The proofs are in PropScan.v, with
    concrete cases. *)
From Verif Require Import SpecScan WorldRef WorldInv SpecWorld SpecConcMap PropScan SpecSerial Machine.
From stdpp Require Import list.
Local Open Scope nat_scope.
Local Open Scope list_scope.


(** C68: in a covered history (any number of trees and transactions, interleaved in any way) without Delete and DeletePrefix, Walk, DFS and
    LongestPrefix on every non-empty tree ever handed out answer as its reference map. *)
Theorem C68 : forall {V} `{GoZero V} (cs : list (call V)) g rs w i t m d,
  covered cs g -> disciplined cs -> (N.of_nat (length cs) < 2 ^ 64)%N -> (forall c, c ∈ cs -> ~ removes c) -> exec cs w_init = (rs, w) ->
  w_trees w !! i = Some t -> g_trees g !! i = Some (m, d) -> m <> ∅ -> scans_as (w_h w) t m.
Proof. exact @C68_proof. Qed.
Print Assumptions C68.

(** Goroutines whose jobs are covered and remove nothing, interleaved in any way: Walk, DFS and LongestPrefix on every non-empty tree handed out
    answer as the map that the job which made the tree has computed. *)
Theorem C68_conc : forall {V} `{GoZero V} (c : cfg V) js gs ns, recorded c js gs -> jobs_ok js ns -> Forall job_adds js ->
  exists ts, jobs_run js ts /\ length ts = length (c_pub c) /\
    forall i tr m d, c_pub c !! i = Some tr -> ts !! i = Some (m, d) -> m <> ∅ -> scans_as (c_h c) tr m.
Proof. exact @C68_conc_proof. Qed.
Print Assumptions C68_conc.
