(** Vocabulary for C27, C28, C29, C83 and C84. *)
From Coq Require Import List ZArith Arith Bool.
From Verif Require Import Machine TimerModel.
Import ListNotations.
Open Scope Z_scope.

(** How often timer [t] fired in a history. *)
Definition fires (t : nat) (evs : list event) : nat :=
  length (filter (fun e => match e with EFire u _ => (u =? t)%nat | _ => false end) evs).
(** The earliest time of its first firing. *)
Definition first_time (born due ival : Z) : Z := if 0 <? due then born + due else born + ival.
(** Firings that are already on their way: in the actor's channel, in the hands of the
    goroutine, or a tick the goroutine has not received. *)
Definition on_the_way (t : nat) (s : state) : nat :=
  length (filter (Nat.eqb t) (chan s)) +
  match nth_error (tms s) t with
  | Some x => (match at_pc x with GSend | GSendDue => 1 | _ => 0 end) + (match tick x with Some k => if full k then 1 else 0 | None => 0 end)
  | None => 0
  end.
Definition no_reset (t : nat) (sched : list label) : Prop := forall iv b, ~ In (LReset t iv b) sched.

(** The goroutine of the timer has made its ticker. *)
Definition started (t : nat) (s : state) : Prop := exists x k, nth_error (tms s) t = Some x /\ tick x = Some k.
(** Requests that avoid the two traps of C28: intervals are positive, and timers are
    cancelled or reset only once started — or, if [recovered] allows it, from inside a
    handler, where a panic is recovered. *)
Definition careful (recovered : bool) (s : state) (l : label) : Prop :=
  match l with
  | LOn _ i => 0 < i
  | LCancel t inside | LReset t _ inside => started t s \/ (recovered = true /\ inside = true)
  | _ => True
  end.
Definition all_careful (recovered : bool) (s0 : state) (sched : list label) : Prop :=
  forall pre l suf s evs, sched = pre ++ l :: suf -> run step s0 pre = Some (s, evs) -> careful recovered s l.
(** The runtime goes on sending ticks for it. *)
Definition ticking (t : nat) (s : state) : Prop :=
  exists x k, nth_error (tms s) t = Some x /\ tick x = Some k /\ active x = true /\ stopped k = false.
(** What NextTrigger returns. *)
Definition next_trigger (t : nat) (s : state) : option Z := option_map nexttick (nth_error (tms s) t).
Definition no_cancel (t : nat) (sched : list label) : Prop := forall b, ~ In (LCancel t b) sched.
(** Work that goes on by itself: the goroutine of timer [t], the runtime's ticks for it,
    the actor's loop and its callbacks, and passing time — no calls. *)
Definition own_work (t : nat) (l : label) : Prop :=
  match l with
  | LAdvance _ | LTake | LDone => True
  | LGo u | LAfter u | LPush u | LMake u | LRecv u | LTick u => u = t
  | _ => False
  end.
