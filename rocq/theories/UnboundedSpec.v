(** Vocabulary for the unbounded channel. *)
From Coq Require Import List.
From Verif Require Import UnboundedModel.
Import ListNotations.

(** The values Put, in the order in which the calls entered the mutex. *)
Fixpoint puts {V} (sched : list (label V)) : list V :=
  match sched with
  | [] => []
  | LPut v :: r => v :: puts r
  | _ :: r => puts r
  end.
(** The values received from Get(), by any consumer, in order. *)
Fixpoint received {V} (evs : list (event V)) : list V :=
  match evs with [] => [] | ERecv _ v :: r => v :: received r end.

Definition olist {V} (o : option V) : list V := match o with Some v => [v] | None => [] end.
(** Everything still inside: in the channel, in the backlog, in a Put call that
    is about to append. *)
Definition buffered {V} (s : state V) : list V :=
  olist (chan s) ++ backlog s ++ olist (holder s).

(** Every receive has been followed by a Load of the same consumer. *)
Definition all_loaded {V} (sched : list (label V)) : Prop :=
  forall a c b, sched = a ++ LRecv c :: b -> In (LLoad c) b.
