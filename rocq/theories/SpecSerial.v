(** Serial executions of goroutines: one after the other, each from its first command to its last, in one memory.

    A job is what one goroutine does from start to end.  Trees are numbered in the order in which they are handed out. *)
From Verif Require Export Machine.
Local Open Scope nat_scope.

Section SpecSerial.
Context {V : Type} `{GoZero V}.

Inductive job :=
| JNew                                    (* NewRadixTree *)
| JTxn (i : nat) (c : client V)           (* a transaction on tree i *)
| JClone (i : nat).                       (* Clone of tree i *)
(** The program of a job that starts from tree tr *)
Definition jprog (g : job) (tr : rtree) : prog V (option rtree) :=
  match g with JTxn _ c => goroutine tr c | _ => cloner tr end.
Definition jbase (g : job) : nat := match g with JTxn i _ | JClone i => i | JNew => 0 end.

(** One job alone: the memory and the trees handed out after it *)
Definition jrun (s : heap V * list rtree) (g : job) : heap V * list rtree :=
  match g with
  | JNew => match newTree s.1 with (Ok tr, h) => (h, s.2 ++ [tr]) | (_, h) => (h, s.2) end
  | _ => match s.2 !! jbase g with
         | None => s
         | Some tr =>
             match run (jprog g tr) (mkS s.1 (noTxn tr)) with
             | (Ok (Some tr'), s') => (s_h s', s.2 ++ [tr'])
             | (_, s') => (s_h s', s.2)
             end
         end
  end.
Definition serial (js : list job) : heap V * list rtree := foldl jrun (h_init, []) js.

(** [recorded c js gs]: an execution leads to c, in which the jobs js have ended, in this order; gs are the jobs of all goroutines. *)
Inductive recorded : cfg V -> list job -> list job -> Prop :=
| rec_0 : recorded cfg0 [] []
| rec_new h h' ths pub tr js gs :
    recorded (mkC h ths pub) js gs -> newTree h = (Ok tr, h') -> recorded (mkC h' ths (pub ++ [tr])) (js ++ [JNew]) gs
| rec_spawn h ths pub i tr c js gs :
    recorded (mkC h ths pub) js gs -> pub !! i = Some tr -> recorded (mkC h (ths ++ [Some (goroutine tr c, noTxn tr)]) pub) js (gs ++ [JTxn i c])
| rec_clone h ths pub i tr js gs :
    recorded (mkC h ths pub) js gs -> pub !! i = Some tr -> recorded (mkC h (ths ++ [Some (cloner tr, noTxn tr)]) pub) js (gs ++ [JClone i])
| rec_cmd h ths pub i t B (c : cmd V B) k b s js gs :
    recorded (mkC h ths pub) js gs -> ths !! i = Some (Some (Do c k, t)) -> sem c (mkS h t) = (Ok b, s) ->
    recorded (mkC (s_h s) (<[i := Some (k b, s_t s)]> ths) pub) js gs
| rec_fault h ths pub i t B (c : cmd V B) k s js gs :
    recorded (mkC h ths pub) js gs -> ths !! i = Some (Some (Do c k, t)) -> sem c (mkS h t) = (Panic, s) ->
    recorded (mkC (s_h s) (<[i := None]> ths) pub) js gs
| rec_done h ths pub i t r g js gs :
    recorded (mkC h ths pub) js gs -> ths !! i = Some (Some (PRet (Ok r), t)) -> gs !! i = Some g ->
    recorded (mkC h (<[i := None]> ths) (pub ++ match r with Some tr => [tr] | None => [] end)) (js ++ [g]) gs
| rec_stop h ths pub i t o js gs :
    recorded (mkC h ths pub) js gs -> ths !! i = Some (Some (PRet o, t)) -> (o = Panic \/ o = NoFuel) ->
    recorded (mkC h (<[i := None]> ths) pub) js gs
| rec_watch h h' ths pub js gs :
    recorded (mkC h ths pub) js gs -> chanOnly h h' -> recorded (mkC h' ths pub) js gs.
End SpecSerial.
Arguments job V : clear implicits.
