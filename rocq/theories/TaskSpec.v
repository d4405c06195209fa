(** Vocabulary for C65: what the loops of a task do, as seen by its handler. *)
From Coq Require Import List Arith Bool.
From Verif Require Import Machine TaskModel.
Import ListNotations.

Definition in_handler (s : state) (i : nat) : Prop := nth_error (loops s) i = Some PHandle.
(** Between calls of the handler, with no tick about to be served: no loop is about to
    begin, is in the handler or is about to choose its ticker, and no channel holds a tick. *)
Definition idle (s : state) : Prop :=
  (forall p, In p (loops s) -> exists k, p = PBlock k) /\ (forall t, In t (ticks s) -> full t = false).
(** Start and stop are only called while the task is idle (or has no loop yet). *)
Definition gentle (s0 : state) (sched : list label) : Prop :=
  forall pre l suf s evs, sched = pre ++ l :: suf -> l = LStart \/ l = LStop -> run step s0 pre = Some (s, evs) -> idle s.
Definition no_panic (sched : list label) : Prop := forall i, ~ In (LEnd i true) sched.
Definition count_ev (f : event -> bool) (evs : list event) : nat := length (filter f evs).
Definition started (e : event) : bool := match e with EStarted => true | _ => false end.
Definition paniced (e : event) : bool := match e with EPanic _ => true | _ => false end.
(** The last start or stop that took effect was a stop. *)
Definition stopped (evs : list event) : Prop := exists a b, evs = a ++ EStopped :: b /\ ~ In EStarted b.
(** The last start or stop that took effect was a start. *)
Definition running_task (evs : list event) : Prop := exists a b, evs = a ++ EStarted :: b /\ ~ In EStopped b.
(** Work that goes on by itself: the loops, with handlers that return, and the tickers. *)
Definition loop_work (l : label) : Prop := match l with LStart | LStop | LEnd _ true => False | _ => True end.
Definition began (e : event) : bool := match e with EBegin _ => true | _ => false end.
