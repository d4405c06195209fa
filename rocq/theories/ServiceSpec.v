(** Vocabulary for C105-C108: what is seen of the timer service. *)
From Coq Require Import List Arith Bool.
From Verif Require Import Machine ServiceModel.
From Verif Require TaskModel.
Import ListNotations.

(** The task registered for an id, from the changes of the map so far. *)
Fixpoint reg (id : nat) (evs : list event) (d : option nat) : option nat :=
  match evs with
  | [] => d
  | VPut id' k :: r => reg id r (if Nat.eqb id' id then Some k else d)
  | VDel id' :: r => reg id r (if Nat.eqb id' id then None else d)
  | _ :: r => reg id r d
  end.
Definition registered (evs : list event) (id : nat) : option nat := reg id evs None.
(** Calls that have begun and not returned. *)
Definition pending (evs : list event) (j : nat) (c : call) : Prop := In (VCall j c) evs /\ forall ok, ~ In (VRet j ok) evs.
Definition quiet (evs : list event) : Prop := forall j c, ~ pending evs j c.
(** Calls that change the map. *)
Definition changes (c : call) : Prop := match c with KNew _ _ _ _ | KAdd _ | KRemove _ => True | _ => False end.
(** While a call that changes the map is pending, no other call is. *)
Definition alone (evs : list event) : Prop := forall a b j c, evs = a ++ b -> pending a j c -> changes c -> forall j' c', pending a j' c' -> j' = j.
(** What happened to one task. *)
Fixpoint task_events (k : nat) (evs : list event) : list TaskModel.event :=
  match evs with
  | [] => []
  | VTask k' e :: r => if Nat.eqb k' k then e :: task_events k r else task_events k r
  | _ :: r => task_events k r
  end.
(** The starts (true) and stops (false) of one task by calls on the service. *)
Fixpoint acts (k : nat) (evs : list event) : list bool :=
  match evs with
  | [] => []
  | VAct _ k' b :: r => if Nat.eqb k' k then b :: acts k r else acts k r
  | _ :: r => acts k r
  end.
(** The starts and stops in a schedule of a task. *)
Fixpoint controls (sched : list TaskModel.label) : list bool :=
  match sched with
  | [] => []
  | TaskModel.LStart :: r => true :: controls r
  | TaskModel.LStop :: r => false :: controls r
  | _ :: r => controls r
  end.
(** Task k was made for this id by NewTickTask (with [svc]) or NewTickTimer, with these
    arguments. *)
Definition made (evs : list event) (k id : nat) (isrun pos svc : bool) : Prop := exists j, In (VCall j (KNew id isrun pos svc)) evs /\ In (VMade j k) evs.
(** The call names this id and wants a start or a stop. *)
Definition asks (c : call) (b : bool) (id : nat) : Prop := c = KOne b id \/ (c = KStop id /\ b = false) \/ c = KAll b.
(** Work of the tasks alone. *)
Definition task_work (k : nat) (l : label) : Prop := exists t, l = LTask k t.
(** Work of the calls that have begun. *)
Definition own_work (l : label) : Prop := match l with LStep _ | LNext _ _ => True | _ => False end.
