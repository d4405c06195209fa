(** Vocabulary for one actor, over the events of an execution. *)
From Coq Require Import List ZArith Bool.
From Verif Require Import MpscModel ActorModel.
Import ListNotations.

(** Messages in the order in which they entered the mailbox. *)
Fixpoint entered (evs : list event) : list qmsg :=
  match evs with [] => [] | EEnter m :: r => m :: entered r | _ :: r => entered r end.
(** Messages whose handling began, in order (those without a registered handler
    are handled by doing nothing). *)
Fixpoint taken (evs : list event) : list qmsg :=
  match evs with
  | [] => []
  | EStart m :: r => m :: taken r
  | ENoHandler m :: r => m :: taken r
  | _ :: r => taken r
  end.
(** Messages whose wait group was released, in order, one entry per release. *)
Fixpoint released (evs : list event) : list qmsg :=
  match evs with [] => [] | EDone m :: r => m :: released r | _ :: r => released r end.
(** The message being handled now. *)
Definition current (s : state) : list qmsg :=
  match at_ s with Handle m | HandleDone m => [m] | _ => [] end.

(** Increments and decrements of wait group [g]. *)
Fixpoint adds (g : nat) (evs : list event) : Z :=
  match evs with
  | [] => 0
  | EAdd h :: r => (if Nat.eqb h g then 1 else 0) + adds g r
  | _ :: r => adds g r
  end%Z.
Fixpoint releases (g : nat) (ms : list qmsg) : Z :=
  match ms with
  | [] => 0
  | m :: r => (if Nat.eqb (mwg (snd m)) g then 1 else 0) + releases g r
  end%Z.

(** What user code of the actor can be running. *)
Inductive activity := AMsg (m : qmsg) | ATimer (t : nat) | AAction (r : nat).
(** [alternates cur evs]: while one piece of user code runs ([cur], if any),
    none other starts, and only that one ends. *)
Fixpoint alternates (cur : option activity) (evs : list event) : Prop :=
  match evs with
  | [] => True
  | EStart m :: r => cur = None /\ alternates (Some (AMsg m)) r
  | ETimerStart t :: r => cur = None /\ alternates (Some (ATimer t)) r
  | EActStart a :: r => cur = None /\ alternates (Some (AAction a)) r
  | EEnd m _ :: r => cur = Some (AMsg m) /\ alternates None r
  | ETimerEnd t :: r => cur = Some (ATimer t) /\ alternates None r
  | EActEnd a :: r => cur = Some (AAction a) /\ alternates None r
  | _ :: r => alternates cur r
  end.

(** The same execution with every handler returning nil. *)
Definition all_ok_label (l : label) : label :=
  match l with LHandled _ => LHandled OK | _ => l end.
Definition all_ok_event (e : event) : event :=
  match e with EEnd m _ => EEnd m OK | _ => e end.

(** No delivery (Received call or forwarder) is under way. *)
Definition no_delivery_in_progress (s : state) : Prop :=
  forall d, In d (dels s) -> dst d = Returned.
Fixpoint exits (sched : list label) : nat :=
  match sched with [] => 0 | LExit :: r => S (exits r) | _ :: r => exits r end.
Definition is_forward (l : label) : bool := match l with LForward _ => true | _ => false end.
Definition is_timeout (l : label) : bool := match l with LChkTimeout => true | _ => false end.

(** The same events had every failing handler returned nil and had a handler
    doing nothing been registered for every unknown event. *)
Definition noop_event (e : event) : list event :=
  match e with
  | ENoHandler m => [EStart m; EEnd m OK]
  | EEnd m _ => [EEnd m OK]
  | _ => [e]
  end.
Definition without_handlers (sched : list label) : list label :=
  filter (fun l => match l with LHandled _ => false | _ => true end) sched.
(** Steps of the loop that take messages from the mailbox and handle them. *)
Definition mailbox_step (l : label) : bool :=
  match l with LQ _ | LHandled _ | LDone => true | _ => false end.
(** Anything but a pub/sub forwarder starting a delivery and the 10 s limit of
    the closing procedure. *)
Definition quiet_label (l : label) : bool := negb (is_forward l) && negb (is_timeout l).
