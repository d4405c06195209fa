(** Vocabulary for the theorems about the wait group of a message. *)
From Coq Require Import List ZArith.
From Verif Require Import Machine WgModel.
Import ListNotations.
Open Scope Z_scope.

(** The sum of the deltas of all calls of Add and Done made so far. *)
Fixpoint begun (sched : list label) : Z :=
  match sched with
  | [] => 0
  | LBegin d :: r => d + begun r
  | _ :: r => begun r
  end.

(** The sum of the deltas that have reached the wait group. *)
Fixpoint applied (evs : list event) : Z :=
  match evs with
  | [] => 0
  | EApplied d :: r => d + applied r
  | _ :: r => applied r
  end.

(** No call of Add or Done has changed the copy only. *)
Definition at_rest (s : state) : Prop := forall d, ~ In (Counted d) (ops s).

(** A call of Wait has begun and has neither returned nor panicked. *)
Definition waiting (s : state) (j : nat) : Prop :=
  nth_error (waiters s) j = Some Blocked \/ nth_error (waiters s) j = Some Woken.

(** The rules of sync.WaitGroup for the next step: no delta 0, the counter stays between 0 and
    2^31, and it leaves 0 only while no call of Wait is under way. *)
Definition obeys (s : state) (l : label) : Prop :=
  match l with
  | LApply i => forall d, nth_error (ops s) i = Some (Counted d) ->
      d <> 0 /\ 0 <= cnt s + d < 2 ^ 31 /\ (cnt s = 0 -> forall j, ~ waiting s j)
  | _ => True
  end.

(** The rules are kept at every step of the schedule. *)
Definition rules_kept (sched : list label) : Prop :=
  forall before l after s evs, sched = before ++ l :: after ->
    run step init before = Some (s, evs) -> obeys s l.
