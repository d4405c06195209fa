(** Vocabulary for C30-C34 and C66, over the events of an execution only. *)
From Coq Require Import List String ZArith Bool.
From Verif Require Import CallModel.
Import ListNotations.

(** ** Chains of hops (C30) *)
(** A Call by an actor: its id and type; target id, target type and event. *)
Record acall := mkC { cid : string; cty : string; ctgt : string; ctty : string; cev : string }.
Definition hop_of (c : acall) : hop := ActorCall (cid c) (cty c) (ctgt c) (ctty c) (cev c).
(** What no hop may change. *)
Definition payload (m : message) : string * string * Z * list Z * list Z :=
  (hID (mHeader m), hToken (mHeader m), hTime (mHeader m), hCustom (mHeader m), mBody m).

(** ** Call trees (C33) *)
(** Call [i] uses wait group [g] (that of the context of its wrapper). *)
Definition uses (evs : list event) (i g : nat) : Prop :=
  exists by_ par w to_ ev org, In (ECall i by_ par w g to_ ev org) evs.
(** Call [j] is made by the handler of message [k]. *)
Definition made_by (evs : list event) (j k : nat) : Prop :=
  exists by_ w g to_ ev org, In (ECall j by_ (Some k) w g to_ ev org) evs.
(** The calls below [i]: those made with the same context by the handler of [i],
    by the handlers of those, and so on. *)
Inductive in_tree (evs : list event) (g i : nat) : nat -> Prop :=
| tree_root : uses evs i g -> in_tree evs g i i
| tree_call j k : in_tree evs g i k -> made_by evs j k -> uses evs j g -> in_tree evs g i j.
(** Apart from [i], the context is used only by handlers of messages that
    carry it. *)
Definition sole_root (evs : list event) (g i : nat) : Prop :=
  forall j, uses evs j g -> j <> i -> exists k, made_by evs j k /\ uses evs k g.
Definition handled (evs : list event) (i : nat) : Prop := exists o, In (EHandled i o) evs.

(** The labels of Call [i] itself. *)
Definition own (i : nat) (l : label) : bool :=
  match l with
  | LCount j | LReceived j | LPush j | LSelect j | LReturn j => Nat.eqb i j
  | _ => false
  end.
(** The steps of root call [i] after its message has been sent: it enters its
    select, its goroutine sees the wait group at zero and closes Done, it
    returns. *)
Definition root_label (i : nat) (l : label) : bool :=
  match l with
  | LSelect j | LWake j false | LCloseDone j | LReturn j => Nat.eqb i j
  | _ => false
  end.
