(** Vocabulary for C110-C115: what is seen of the shutdown of a node. *)
From Coq Require Import List Arith Bool.
From Verif Require Import Machine ShutModel.
Import ListNotations.

(** Actor a is in the map of the node. *)
Definition registered (evs : list event) (a : nat) : Prop := (exists j, In (VPut j a) evs) /\ forall j, ~ In (VDel j a) evs.
(** The shutdown has begun. *)
Definition begun (evs : list event) : Prop := exists t, In (VBegin t) evs.
(** Register and Unregister calls that have not yet changed the map. *)
Definition called (evs : list event) (j : nat) : Prop := exists a, In (VMade j a) evs \/ In (VUnregister j a) evs.
Definition returned (evs : list event) (j : nat) : Prop := exists a, In (VPut j a) evs \/ In (VDel j a) evs.
Definition pending (evs : list event) (j : nat) : Prop := called evs j /\ ~ returned evs j.
(** From the beginning of the shutdown on, no such call is pending. *)
Definition calm (evs : list event) : Prop := forall a b j, evs = a ++ b -> begun a -> ~ pending a j.
(** All requests that came in are answered. *)
Definition answered (evs : list event) : Prop := forall r, In (VRequest r) evs -> In (VAnswer r) evs.
(** Steps of the node itself: no signals, no new calls or requests, and a request or an actor
    is not forced to end. *)
Definition own (l : label) : Prop := match l with LMain | LNext _ | LGo _ | LWaiter | LReady | LTimeout | LCall _ | LTick => True | _ => False end.
Definition ticks (sched : list label) : nat := length (filter (fun l => match l with LTick => true | _ => false end) sched).
(** Without the signals. *)
Definition no_signal (sched : list label) : list label := filter (fun l => match l with LSignal => false | _ => true end) sched.
Definition unsignalled (evs : list event) : list event := filter (fun e => match e with VSignal => false | _ => true end) evs.
