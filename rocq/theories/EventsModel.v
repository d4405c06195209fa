(** Model of the handler map of an actor: OnEvent and Sub in
    /repo/core/actor/actor_runtime_impl.go lines 81-87 and 145-157, and its use
    by the loop, line 338.

    Simplifications: a chain is an abstract value; the map is a function from
    event names; calls are executed one after the other (the code does not
    synchronise them with the loop).  The pub/sub side of Sub is reduced to its
    two effects on the actor: from line 152 on, messages published to the topic
    arrive in the mailbox under the event they were published with
    (lib/pubsub/ps_channel.go lines 63-69, 97-101). *)
From Coq Require Import List String.
Import ListNotations.

Section Events.
Context {C : Type}.

(** chains map[string]core.IChain, line 34. *)
Definition chains := string -> option C.
(** make(map[string]core.IChain), line 58. *)
Definition empty : chains := fun _ => None.

(** OnEvent, lines 81-87: the new map and whether nil was returned. *)
Definition OnEvent (m : chains) (ev : string) (c : C) : chains * bool :=
  match m ev with
  | Some _ => (m, false)
  | None => (fun e => if String.eqb e ev then Some c else m e, true)
  end.

(** What the loop executes for a message with event [ev], lines 338-345. *)
Definition dispatch (m : chains) (ev : string) : option C := m ev.

(** Sub, lines 145-157, after the subscription itself succeeded: line 154
    ignores the error of OnEvent, line 156 returns nil. *)
Definition Sub (m : chains) (channel : string) (c : C) : chains * bool :=
  (fst (OnEvent m channel c), true).

(** The calls an actor makes during its set-up. *)
Inductive op := OpOnEvent (ev : string) (c : C) | OpSub (channel : string) (c : C).
Definition exec (m : chains) (o : op) : chains * bool :=
  match o with OpOnEvent ev c => OnEvent m ev c | OpSub ch c => Sub m ch c end.
Fixpoint execs (m : chains) (os : list op) : chains * list bool :=
  match os with
  | [] => (m, [])
  | o :: r => let '(m1, b) := exec m o in let '(m2, bs) := execs m1 r in (m2, b :: bs)
  end.
End Events.
Arguments chains : clear implicits.
Arguments op : clear implicits.
