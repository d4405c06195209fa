(** Model of the timers of an actor: OnTimer, CancelTimer, Reset, NextTrigger and the part
    of the loop that fires them, /repo/core/actor/actor_runtime_impl.go lines 95-137 and
    301-318, 346-356, 366-377, and actor_timer.go.

    Time is an integer that only grows.  time.After and time.Ticker are those of the
    runtime of Go 1.22 (go.mod): a channel with room for one tick, into which the runtime
    puts a tick at or after the time it is due unless one lies there; the next one is due
    at the next multiple of the period after that.  Every access to a channel is one step.
    Simplified: Stop and Reset are one step each (they read and write an atomic flag and
    call the ticker); of the loop's other work only that it is not taking a timer then
    matters, which the schedule decides. *)
From Coq Require Import List ZArith Arith Bool.
From Verif Require Import Machine.
Import ListNotations.
Open Scope Z_scope.

Record tk := mkTk { stopped : bool; period : Z; next : Z; full : bool }.
(** The goroutine of OnTimer, lines 104-123. *)
Inductive pc :=
| GStart            (* before line 108 *)
| GAfter (at_ : Z)  (* 109: time.After *)
| GSendDue          (* 110 *)
| GMake             (* 113 *)
| GSelect           (* 115-121 *)
| GSend             (* 118 *)
| GGone.            (* 120 *)
(** TimerInfo, actor_timer.go lines 10-19, and its goroutine. [born] is when it was registered. *)
Record timer := mkT { due : Z; ival : Z; born : Z; active : bool; nexttick : Z; tick : option tk; at_pc : pc }.
Record state := mkS { cap : nat; now : Z; tms : list timer; chan : list nat; exec : option nat;
                      shut : bool; closing : bool; gone : bool; crashed : bool }.
(** Init, line 66: [cap] is 1024. *)
Definition actor (cap : nat) : state := mkS cap 0 [] [] None false false false false.

Inductive label :=
| LAdvance (d : Z)              (* time passes *)
| LOn (due ival : Z)            (* OnTimer *)
| LCancel (t : nat) (inside : bool) (* CancelTimer; from the actor's own handlers, where a panic is recovered? *)
| LReset (t : nat) (iv : Z) (inside : bool)
| LGo (t : nat) | LAfter (t : nat) | LPush (t : nat) | LMake (t : nat) | LRecv (t : nat) | LGone (t : nat) (* the goroutine *)
| LTick (t : nat)               (* the runtime *)
| LTake | LDone                 (* the loop takes a timer; the callback returns or panics *)
| LShut | LClosing | LLeave.    (* Exit closes shutdownCh; the loop sets closed; the loop ends *)
Inductive event :=
| EOn (t : nat) | ECancelled (t : nat) | EReset (t : nat) (ok : bool) | EFire (t : nat) (z : Z) | EPanic | ECrash.

Definition set (s : state) (t : nat) (x : timer) : state :=
  mkS (cap s) (now s) (upd (tms s) t x) (chan s) (exec s) (shut s) (closing s) (gone s) (crashed s).
Definition goto (x : timer) (p : pc) : timer := mkT (due x) (ival x) (born x) (active x) (nexttick x) (tick x) p.
Definition with_tick (x : timer) (k : tk) : timer := mkT (due x) (ival x) (born x) (active x) (nexttick x) (Some k) (at_pc x).
Definition with_chan (s : state) (q : list nat) (e : option nat) : state :=
  mkS (cap s) (now s) (tms s) q e (shut s) (closing s) (gone s) (crashed s).
Definition crash (s : state) : state := mkS (cap s) (now s) (tms s) (chan s) (exec s) (shut s) (closing s) (gone s) true.
(** A nil dereference: the handler is aborted, or the process dies. *)
Definition nil_deref (s : state) (inside : bool) : option (state * list event) :=
  if inside then Some (s, [EPanic]) else Some (crash s, [EPanic; ECrash]).

(** NewTimerInfo, actor_timer.go 69-86, called by OnTimer. *)
Definition new_timer (now due ival : Z) : timer :=
  mkT due ival now true (if due =? 0 then now + ival else now + due) None GStart.

Definition step (s : state) (l : label) : option (state * list event) :=
  if crashed s then None else
  match l with
  | LAdvance d => if d <=? 0 then None else Some (mkS (cap s) (now s + d) (tms s) (chan s) (exec s) (shut s) (closing s) (gone s) false, [])
  | LOn d i => Some (mkS (cap s) (now s) (tms s ++ [new_timer (now s) d i]) (chan s) (exec s) (shut s) (closing s) (gone s) false, [EOn (length (tms s))])
  | LCancel t inside => (* 128-137 and Stop, actor_timer.go 21-29 *)
    match nth_error (tms s) t with
    | None => None
    | Some x =>
      if active x then
        let y := mkT (due x) (ival x) (born x) false (nexttick x) (tick x) (at_pc x) in
        match tick x with
        | Some k => Some (set s t (with_tick y (mkTk true (period k) (next k) (full k))), [ECancelled t])
        | None => nil_deref (set s t y) inside
        end
      else Some (s, [ECancelled t])
    end
  | LReset t iv inside => (* actor_timer.go 31-48 *)
    match nth_error (tms s) t with
    | None => None
    | Some x =>
      if (0 <? iv) && (ival x =? iv) then Some (s, [EReset t true]) else
      let x1 := if 0 <? iv then mkT (due x) iv (born x) (active x) (nexttick x) (tick x) (at_pc x) else x in
      if ival x1 <=? 0 then Some (set s t x1, [EReset t false]) else
      let x2 := mkT (due x1) (ival x1) (born x1) true (now s + ival x1) (tick x1) (at_pc x1) in
      match tick x2 with
      | Some k => Some (set s t (with_tick x2 (mkTk false (ival x2) (now s + ival x2) (full k))), [EReset t true])
      | None => nil_deref (set s t x2) inside
      end
    end
  | LGo t =>
    match nth_error (tms s) t with
    | Some x => match at_pc x with GStart => Some (set s t (goto x (if 0 <? due x then GAfter (now s + due x) else GMake)), []) | _ => None end
    | None => None
    end
  | LAfter t =>
    match nth_error (tms s) t with
    | Some x => match at_pc x with GAfter z => if z <=? now s then Some (set s t (goto x GSendDue), []) else None | _ => None end
    | None => None
    end
  | LPush t =>
    match nth_error (tms s) t with
    | Some x =>
      if (length (chan s) <? cap s)%nat then
        match at_pc x with
        | GSendDue => Some (with_chan (set s t (goto x GMake)) (chan s ++ [t]) (exec s), [])
        | GSend => Some (with_chan (set s t (goto x GSelect)) (chan s ++ [t]) (exec s), [])
        | _ => None
        end
      else None
    | None => None
    end
  | LMake t =>
    match nth_error (tms s) t with
    | Some x =>
      match at_pc x with
      | GMake =>
        if ival x <=? 0 then Some (crash s, [EPanic; ECrash]) (* NewTicker panics; nobody recovers *)
        else Some (set s t (goto (with_tick x (mkTk false (ival x) (now s + ival x) false)) GSelect), [])
      | _ => None
      end
    | None => None
    end
  | LTick t =>
    match nth_error (tms s) t with
    | Some x =>
      match tick x with
      | Some k =>
        if negb (stopped k) && (next k <=? now s)
        then Some (set s t (with_tick x (mkTk false (period k) (next k + period k * (1 + (now s - next k) / period k)) true)), [])
        else None
      | None => None
      end
    | None => None
    end
  | LRecv t =>
    match nth_error (tms s) t with
    | Some x =>
      match at_pc x, tick x with
      | GSelect, Some k => if full k then Some (set s t (goto (with_tick x (mkTk (stopped k) (period k) (next k) false)) GSend), []) else None
      | _, _ => None
      end
    | None => None
    end
  | LGone t =>
    match nth_error (tms s) t with
    | Some x => match at_pc x with GSelect => if shut s then Some (set s t (goto x GGone), []) else None | _ => None end
    | None => None
    end
  | LTake => (* 305-319 *)
    if gone s then None else
    match exec s, chan s with
    | None, t :: q => if closing s then Some (with_chan s q None, []) else Some (with_chan s q (Some t), [EFire t (now s)])
    | _, _ => None
    end
  | LDone => match exec s with Some _ => Some (with_chan s (chan s) None, []) | None => None end
  | LShut => if shut s then None else Some (mkS (cap s) (now s) (tms s) (chan s) (exec s) true (closing s) (gone s) false, [])
  | LClosing => (* 354-358 *)
    match exec s with
    | None => if shut s && negb (gone s) then Some (mkS (cap s) (now s) (tms s) (chan s) None (shut s) true (gone s) false, []) else None
    | Some _ => None
    end
  | LLeave => (* 359-361 *)
    match exec s with
    | None => if closing s then Some (mkS (cap s) (now s) (tms s) (chan s) None (shut s) true true false, []) else None
    | Some _ => None
    end
  end.
