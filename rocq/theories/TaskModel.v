(** Model of a periodic task of the timer service, /repo/lib/timer/timer_tick.go and
    timer.go.

    A ticker is whether it still runs and whether a tick lies in its channel (which holds
    one).  When it ticks is chosen by the schedule.  Each loop goroutine is where it is.
    Not modelled: the begin and end handlers and IsEnd, which happen inside the handler
    step; data races on State and TimeTicker (stop takes no lock) beyond the order of the
    accesses; an interval that is not positive.  The map of tasks is in ServiceModel. *)
From Coq Require Import List Arith Bool.
From Verif Require Import Machine.
Import ListNotations.

Inductive tstate := TInit | TRun | TStop.
Record ticker := mkTk { running : bool; full : bool }.
(** dofunc, timer_tick.go 79-86. *)
Inductive loop :=
| PDue            (* 88-92: waiting for the due time, or for the goroutine to start *)
| PHandle         (* 51-78: in the handler *)
| PEval           (* 83: before task.TimeTicker is read *)
| PBlock (k : nat). (* 83: receiving from the channel of ticker k *)
Record state := mkS { isrun : bool; service : bool; st : tstate; cur : option nat; ticks : list ticker; loops : list loop; crashed : bool }.
(** NewTickTimer, timer_tick.go 33-48; [svc] is whether it belongs to a service
    (timer.go 136-144). *)
Definition task (isrun svc : bool) : state := mkS isrun svc TInit None [] [] false.

Inductive label :=
| LStart | LStop
| LFire (i : nat)             (* the loop begins *)
| LEnd (i : nat) (panics : bool) (* the handler ends *)
| LEval (i : nat) | LRecv (i : nat)
| LTick (k : nat).            (* the runtime: a tick of ticker k *)
Inductive event := EStarted | EStopped | EBegin (i : nat) | EEnd (i : nat) | EPanic (i : nat) | ECrash.

Definition set (s : state) (i : nat) (p : loop) : state := mkS (isrun s) (service s) (st s) (cur s) (ticks s) (upd (loops s) i p) (crashed s).
Definition spawn (s : state) : state := mkS (isrun s) (service s) (st s) (cur s) (ticks s) (loops s ++ [PDue]) (crashed s).
Definition crash (s : state) : state := mkS (isrun s) (service s) (st s) (cur s) (ticks s) (loops s) true.
Definition with_ticks (s : state) (t : list ticker) : state := mkS (isrun s) (service s) (st s) (cur s) t (loops s) (crashed s).
Definition with_st (s : state) (x : tstate) : state := mkS (isrun s) (service s) x (cur s) (ticks s) (loops s) (crashed s).

Definition step (s : state) (l : label) : option (state * list event) :=
  if crashed s then None else
  match l with
  | LStart => (* start, timer_tick.go 14-26 *)
    if negb (isrun s) then Some (s, []) else
    match st s with TRun => Some (s, []) | _ => Some (spawn (with_st s TRun), [EStarted]) end
  | LStop => (* stop, timer.go 59-67 *)
    if negb (isrun s) then Some (s, []) else
    match st s with
    | TRun =>
      match cur s with
      | None => Some (crash s, [ECrash]) (* TimeTicker is nil until the first loop has begun *)
      | Some k =>
        match nth_error (ticks s) k with
        | Some t => Some (with_st (with_ticks s (upd (ticks s) k (mkTk false (full t)))) TStop, [EStopped])
        | None => None
        end
      end
    | _ => Some (s, [])
    end
  | LFire i => (* dofunc, 80-81 *)
    match nth_error (loops s) i with
    | Some PDue => Some (mkS (isrun s) (service s) (st s) (Some (length (ticks s))) (ticks s ++ [mkTk true false]) (upd (loops s) i PHandle) false, [EBegin i])
    | _ => None
    end
  | LEnd i panics => (* handler, 51-78; the deferred function, 52-61, starts another loop *)
    match nth_error (loops s) i with
    | Some PHandle =>
      if panics then (if service s then Some (spawn (set s i PEval), [EPanic i]) else Some (crash s, [EPanic i; ECrash]))
      else Some (set s i PEval, [EEnd i])
    | _ => None
    end
  | LEval i => match nth_error (loops s) i, cur s with Some PEval, Some k => Some (set s i (PBlock k), []) | _, _ => None end
  | LRecv i =>
    match nth_error (loops s) i with
    | Some (PBlock k) =>
      match nth_error (ticks s) k with
      | Some (mkTk r true) => Some (set (with_ticks s (upd (ticks s) k (mkTk r false))) i PHandle, [EBegin i])
      | _ => None
      end
    | _ => None
    end
  | LTick k =>
    match nth_error (ticks s) k with
    | Some (mkTk true _) => Some (with_ticks s (upd (ticks s) k (mkTk true true)), [])
    | _ => None
    end
  end.
