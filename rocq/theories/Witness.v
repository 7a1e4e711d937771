(** Tools for concrete runs: used for counterexamples and for the non-vacuity examples. *)
From Verif Require Export Spec.
From Coq Require Export Ascii String.
Local Open Scope nat_scope.

(** String literals as keys. *)
Definition B (s : string) : bytes := List.map nat_of_ascii (list_ascii_of_string s).

Section W.
Context {V : Type} `{GoZero V}.

Definition run (os : list (op V)) := (let! t0 := newTree in treeOps os t0) h_init.
Lemma build_intro os t rs : (run os).1 = Ok (t, rs) -> build os (run os).2 t rs.
Proof. intros E. unfold build. fold (run os). rewrite <- E. by destruct (run os). Qed.

(** Executable version of [yields]. *)
Fixpoint drain {I A} (n : nat) (next : I -> outcome (option A * I)) (it : I) : option (list A) :=
  match n with
  | O => None
  | S n' =>
      match next it with
      | Ok (None, _) => Some []
      | Ok (Some x, it') => match drain n' next it' with Some l => Some (x :: l) | None => None end
      | _ => None
      end
  end.
Lemma drain_yields {I A} n (next : I -> outcome (option A * I)) it l : drain n next it = Some l -> yields next it l.
Proof.
  revert it l. induction n as [|n IH]; intros it l; cbn; [done|].
  destruct (next it) as [[[x|] it']| |] eqn:E; [|intros [= <-]; by eapply yields_nil|done..].
  destruct (drain n next it') as [l'|] eqn:E'; [|done]. intros [= <-]. eapply yields_cons; [done|]. by apply IH.
Qed.
Definition collect (h : heap V) (root : addr) (p : bytes) : option (list (bytes * V)) :=
  match seekPrefix h (newIter root) p with Ok it => drain 400 (iterNext h) it | _ => None end.
Lemma collect_iterates h root p l : collect h root p = Some l -> iterates h root p l.
Proof.
  unfold collect, iterates. destruct (seekPrefix h _ p) as [it| |]; [|done..]. intros E.
  exists it. split; [done|]. by eapply drain_yields.
Qed.

Definition wrun (cs : list (call V)) : world V := (exec cs w_init).2.
Definition wres (cs : list (call V)) : list (outcome (result V)) := (exec cs w_init).1.
End W.
