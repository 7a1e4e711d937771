(** What a tree reads depends only on how it was made (C69).  The proofs are in PropLine.v, PropClone.v and PropSeq.v, with concrete executions. *)
From Verif Require Import SpecLine SpecScan SpecConcMap SpecReads PropLine PropClone PropSeq SpecSerial World Machine.
From stdpp Require Import list.
Local Open Scope nat_scope.
Local Open Scope list_scope.


(** C69 What a tree reads depends only on how it was made: two trees made in the same way, in two executions of any goroutines (or in one), read alike. *)
Theorem C69 : forall {V} `{GoZero V} (c : cfg V) js gs i tr (c' : cfg V) js' gs' i' tr' r, recorded c js gs -> recorded c' js' gs' -> made js i r -> made js' i' r ->
  c_pub c !! i = Some tr -> c_pub c' !! i' = Some tr' -> reads_alike (c_h c) tr (c_h c') tr'.
Proof. exact @C69_proof. Qed.
Print Assumptions C69.

(** Every tree that was handed out was made in exactly one way. *)
Theorem C69_made : forall {V} `{GoZero V} (c : cfg V) js gs i tr, recorded c js gs -> c_pub c !! i = Some tr -> exists r, made js i r /\ forall r', made js i r' -> r' = r.
Proof. exact @C69_made_proof. Qed.
Print Assumptions C69_made.

(** The tree alone: the jobs on the path to it, run one after the other and nothing else, hand out a tree that reads alike. *)
Theorem C69_alone : forall {V} `{GoZero V} (c : cfg V) js gs i tr r, recorded c js gs -> made js i r -> c_pub c !! i = Some tr ->
  made (line r) (age r) r /\ exists T, (serial (line r)).2 !! age r = Some T /\ reads_alike (c_h c) tr (serial (line r)).1 T.
Proof. exact @C69_alone_proof. Qed.
Print Assumptions C69_alone.

(** A tree answers as its reference map if the jobs on the path to it are covered, whatever the other goroutines do (and Walk, DFS and LongestPrefix do if those jobs remove nothing). *)
Theorem C69_maps : forall {V} `{GoZero V} (c : cfg V) js gs i tr r ns, recorded c js gs -> made js i r -> c_pub c !! i = Some tr -> jobs_ok (line r) ns ->
  exists ts m d, jobs_run (line r) ts /\ ts !! age r = Some (m, d) /\ answers_as (c_h c) tr m /\ (exists x, x <= d /\ treeLen tr = N.of_nat (size m + x)) /\
    (Forall job_adds (line r) -> m <> ∅ -> scans_as (c_h c) tr m).
Proof. exact @C69_maps_proof. Qed.
Print Assumptions C69_maps.

(** A goroutine does not panic if its job and the jobs on the path to the tree that it started from are covered, whatever the other goroutines do. *)
Theorem C69_ends : forall {V} `{GoZero V} (c : cfg V) js gs i k cl r ns o t, recorded c js gs -> gs !! i = Some (JTxn k cl) -> made js k r -> jobs_ok (line (MTxn r cl)) ns ->
  c_th c !! i = Some (Some (PRet o, t)) -> exists x, o = Ok x.
Proof. exact @C69_ends_proof. Qed.
Print Assumptions C69_ends.

(** C69_clones: clones on the way leave no trace: two trees made by the same transactions, whatever was cloned in between and how often, read alike, if both or neither
    of them is itself handed out by Clone. *)
Theorem C69_clones : forall {V} `{GoZero V} (c : cfg V) js gs i tr (c' : cfg V) js' gs' i' tr' r r', recorded c js gs -> recorded c' js' gs' -> made js i r -> made js' i' r' ->
  strip r = strip r' -> cloned r = cloned r' -> c_pub c !! i = Some tr -> c_pub c' !! i' = Some tr' -> reads_alike (c_h c) tr (c_h c') tr'.
Proof. exact @C69_clones_proof. Qed.
Print Assumptions C69_clones.

(** C69_looks: transactions that only look (Get, TrackMutate, Commit) leave no trace either: a transaction makes the same of two trees that differ in clones and in such
    transactions on the way. *)
Theorem C69_looks : forall {V} `{GoZero V} (c : cfg V) js gs i tr (c' : cfg V) js' gs' i' tr' r r' cl, recorded c js gs -> recorded c' js' gs' -> like r r' ->
  made js i (MTxn r cl) -> made js' i' (MTxn r' cl) -> c_pub c !! i = Some tr -> c_pub c' !! i' = Some tr' -> reads_alike (c_h c) tr (c_h c') tr'.
Proof. exact @C69_looks_proof. Qed.
Print Assumptions C69_looks.

(** C69_build: a tree that was made by single updates, each in a transaction on the tree of the one before, reads as the tree of the sequential history of
    these updates, whatever the other goroutines do: what is proved of the reads of [build] holds of it. *)
Theorem C69_build : forall {V} `{GoZero V} (c : cfg V) js gs i tr (os : list (op V)), recorded c js gs -> made js i (ops_making os) -> c_pub c !! i = Some tr ->
  exists h t rs, build os h t rs /\ reads_alike (c_h c) tr h t.
Proof. exact @C69_build_proof. Qed.
Print Assumptions C69_build.

(** C69_txns: the same of trees made by transactions of several updates. *)
Theorem C69_txns : forall {V} `{GoZero V} (c : cfg V) js gs i tr (oss : list (list (op V))), recorded c js gs -> made js i (txns_making oss) -> c_pub c !! i = Some tr ->
  exists h t rs, build_txns oss h t rs /\ reads_alike (c_h c) tr h t.
Proof. exact @C69_txns_proof. Qed.
Print Assumptions C69_txns.
