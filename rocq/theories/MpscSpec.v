(** Vocabulary for the queue properties. *)
From Coq Require Import List ZArith Bool.
From Verif Require Import MpscModel.
Import ListNotations.

(** The Push calls of a schedule in the order in which they took effect: the
    swap lies inside the call, so this order respects both the program order of
    each goroutine and the real-time order of non-overlapping calls. *)
Fixpoint pushed {V} (sched : list (label V)) : list (nat * V) :=
  match sched with
  | [] => []
  | LSwap p v :: r => (p, v) :: pushed r
  | _ :: r => pushed r
  end.

(** The values returned by Pop calls, in order. *)
Fixpoint popped {V} (evs : list (event V)) : list V :=
  match evs with
  | [] => []
  | EPop (Some v) :: r => v :: popped r
  | _ :: r => popped r
  end.

(** No Push call is in progress. *)
Definition no_push_in_progress {V} (s : state V) : Prop :=
  forall p, In p (pushes s) -> pstage p = Done.
(** The consumer is not inside Pop. *)
Definition no_pop_in_progress {V} (s : state V) : Prop :=
  match cons s with CIdle | CGot => True | _ => False end.

(** A Push call that has not finished signalling: it has yet to add to the
    counter, or it added, saw a positive counter and has yet to send. *)
Definition will_signal (p : push) : Prop :=
  match pstage p with
  | Swapped | Linked => True
  | Added c => (0 < c)%Z
  | Done => False
  end.

(** Steps of Push calls already started. *)
Definition push_step {V} (l : label V) : bool :=
  match l with LLink _ | LAdd _ | LSend _ => true | _ => false end.
