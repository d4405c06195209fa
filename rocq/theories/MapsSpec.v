(** Vocabulary for C161 and C162. *)
From Coq Require Import List.
From Verif Require Import MapsModel.
Import ListNotations.

(** The loop is running a handler or a timer callback. *)
Definition running (x : list event) : Prop := exists a b, x = a ++ VBegin :: b /\ ~ In VEnd b.
(** A goroutine other than Init and the loop has called the actor. *)
Definition outside (x : list event) : Prop := exists n o, In (VCall (ByOther n) o) x.
(** Init has subscribed, or made a timer, and has not returned. *)
Definition starting (x : list event) : Prop :=
  ~ In VReady x /\ ((exists c, In (VCall ByInit (Sub c)) x) \/ In (VCall ByInit OnTimer) x).
(** Exit is under way. *)
Definition leaving (x : list event) : Prop := In VExit x /\ ~ In VExited x.
