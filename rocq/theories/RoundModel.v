(** Model of one round of a periodic task of the timer service: the function [handler] of
    startTickTask, /repo/lib/timer/timer_tick.go 51-78, with the handlers of the service
    (timer.go 84-103).

    User functions are arbitrary functions on the task's context, which is the flag IsEnd
    (timer.go 30) and everything else.  A round is sequential; loops, tickers and several
    loops at once are in TaskModel, whose step LEnd is a round.  The handlers of the service
    do not change while a round runs. *)
From Coq Require Import List.
Import ListNotations.

Section Round.
(** Everything in the world but the flag; errors; values panicked with. *)
Context {U E P : Type}.

(** *TimerContext: IsEnd and the rest. *)
Definition context := (bool * U)%type.
(** The error of 56 is made from the value recovered. *)
Inductive error := Plain (e : E) | FromPanic (p : P).
(** A TimerHandleFunc returns nil or an error, or panics; an ExceptionHandleFunc returns
    nothing, or panics. *)
Inductive outcome := Fine | Fails (e : E) | Panics (p : P).
Definition func := context -> context * outcome.
Definition exc_func := context -> error -> context * option P.

(** TimerService, timer.go 84-92, as far as a round reads it; None is nil. *)
Record service := mkService { exc : option exc_func; before : option func; after : option func }.
(** TimerInfo; taskService is nil for a task made by NewTickTimer that is in no service. *)
Record task := mkTask { svc : option service; fn : func }.

(** What has run and how it ended (for the exception handler: what it panicked with). *)
Inductive event := EBefore (o : outcome) | EFunc (o : outcome) | EExc (e : error) (q : option P) | EAfter (o : outcome).
Inductive result :=
| Through     (* the round is over *)
| Restarted   (* it has panicked: recovered, and another loop is started, 59 *)
| Died.       (* a panic in the deferred function: the process ends *)

(** The deferred function, 52-61, after a panic with p. *)
Definition recovered (t : task) (c : context) (p : P) : context * list event * result :=
  match svc t with
  | None => (c, [], Died) (* 55: nil dereference *)
  | Some s =>
    match exc s with
    | None => (c, [], Restarted)
    | Some x =>
      let (c', q) := x c (FromPanic p) in
      (c', [EExc (FromPanic p) q], match q with None => Restarted | Some _ => Died end)
    end
  end.

(** Prefixing what has happened before. *)
Definition and_then (evs : list event) (r : context * list event * result) : context * list event * result :=
  let '(c, e, o) := r in (c, evs ++ e, o).

(** 75-77. *)
Definition finish (t : task) (c : context) : context * list event * result :=
  match svc t with
  | Some s =>
    match after s with
    | Some f =>
      let (c', o) := f c in
      and_then [EAfter o] (match o with Panics p => recovered t c' p | _ => (c', [], Through) end)
    | None => (c, [], Through)
    end
  | None => (c, [], Through)
  end.

(** 69-73: err is not nil. *)
Definition report (t : task) (c : context) (e : E) : context * list event * result :=
  match svc t with
  | Some s =>
    match exc s with
    | Some x =>
      let (c', q) := x c (Plain e) in
      and_then [EExc (Plain e) q] (match q with Some p => recovered t c' p | None => finish t c' end)
    | None => finish t c
    end
  | None => finish t c
  end.

(** 66-68. *)
Definition work (t : task) (c : context) : context * list event * result :=
  if fst c then finish t c
  else
    let (c', o) := fn t c in
    and_then [EFunc o]
      (match o with Fine => finish t c' | Fails e => report t c' e | Panics p => recovered t c' p end).

(** 51-78. *)
Definition round (t : task) (c : context) : context * list event * result :=
  match svc t with
  | Some s =>
    match before s with
    | Some f =>
      let (c', o) := f c in
      and_then [EBefore o] (match o with Panics p => recovered t c' p | _ => work t c' end)
    | None => work t c
    end
  | None => work t c
  end.

(** The rounds of a task one after the other; whatever else happens to the context between
    them is [between].  A round after which the process is dead is the last. *)
Fixpoint rounds (t : task) (between : nat -> context -> context) (n : nat) (c : context) : list (list event) :=
  match n with
  | O => []
  | S n' =>
    let '(c', e, o) := round t (between n c) in
    e :: match o with Died => [] | _ => rounds t between n' c' end
  end.
End Round.
Arguments error : clear implicits.
Arguments outcome : clear implicits.
Arguments service : clear implicits.
Arguments task : clear implicits.
Arguments event : clear implicits.
