(** Interleavings of atomic steps: the lazy creation of a watch channel by several goroutines, and the
    closing of channels by several Notify/Commit calls.  Channels are numbers, as in Base.v. *)
From Verif Require Export TxnOps.
From stdpp Require Import list.
Local Open Scope nat_scope.

(** ** getMutateCh (node_4.go:151-166, node_16.go:151-166, node_48.go:160-175, node_256.go:150-165,
    node_leaf.go:154-172)

    One goroutine: where it stands.  [GLoad]: before [n.mutateCh.Load()]; [GMake]: the load returned nil, before
    [make(chan struct{})]; [GCas c]: before [CompareAndSwap(nil, &newCh)]; [GReload]: the swap failed, before the
    second [Load()]; [GDone c]: returned c; [GCrash]: dereferenced a nil pointer. *)
Inductive gpc := GLoad | GMake | GCas (c : chan) | GReload | GDone (c : chan) | GCrash.
(** The mutateCh field of one node, the next unused channel, and the goroutines. *)
Record gst := mkGS { gs_cell : option chan; gs_next : chan; gs_pcs : list gpc }.
(** One atomic step of goroutine number i. *)
Definition gnext (pc : gpc) (cell : option chan) (next : chan) : gpc * option chan * chan :=
  match pc with
  | GLoad => match cell with Some c => (GDone c, cell, next) | None => (GMake, cell, next) end
  | GMake => (GCas next, cell, S next)
  | GCas c => match cell with None => (GDone c, Some c, next) | Some _ => (GReload, cell, next) end
  | GReload => match cell with Some c => (GDone c, cell, next) | None => (GCrash, cell, next) end
  | GDone c => (GDone c, cell, next)
  | GCrash => (GCrash, cell, next)
  end.
Definition gstepi (i : nat) (s : gst) : gst :=
  match gs_pcs s !! i with
  | Some pc => let '(pc', cell, next) := gnext pc (gs_cell s) (gs_next s) in mkGS cell next (<[i := pc']> (gs_pcs s))
  | None => s
  end.
(** A schedule is the list of the goroutines that take the steps. *)
Definition grun (sched : list nat) (s : gst) : gst := foldl (fun s i => gstepi i s) s sched.
(** n goroutines about to call getMutateCh; the channels below [next] exist already. *)
Definition gstart (n : nat) (cell : option chan) (next : chan) : gst := mkGS cell next (replicate n GLoad).

(** ** slowNotify (txn.go:404-411): for every tracked channel [if !isClosed(ch) { close(ch) }]

    [NCheck cs]: before the test of the first channel of cs; [NClose c cs]: the test found c open, before
    [close(c)]; [NPanic]: close of a closed channel. *)
Inductive npc := NCheck (cs : list chan) | NClose (c : chan) (cs : list chan) | NPanic.
Record nst := mkNS { ns_closed : list chan; ns_pcs : list npc }.
Definition nnext (pc : npc) (closed : list chan) : npc * list chan :=
  match pc with
  | NCheck [] => (NCheck [], closed)
  | NCheck (c :: cs) => if bool_decide (c ∈ closed) then (NCheck cs, closed) else (NClose c cs, closed)
  | NClose c cs => if bool_decide (c ∈ closed) then (NPanic, closed) else (NCheck cs, c :: closed)
  | NPanic => (NPanic, closed)
  end.
Definition nstepi (i : nat) (s : nst) : nst :=
  match ns_pcs s !! i with
  | Some pc => let '(pc', closed) := nnext pc (ns_closed s) in mkNS closed (<[i := pc']> (ns_pcs s))
  | None => s
  end.
Definition nrun (sched : list nat) (s : nst) : nst := foldl (fun s i => nstepi i s) s sched.
(** Goroutine number i notifies the channels of the i-th list. *)
Definition nstart (closed : list chan) (css : list (list chan)) : nst := mkNS closed (NCheck <$> css).
