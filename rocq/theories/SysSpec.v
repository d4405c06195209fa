(** Vocabulary for C32, C87 and C88. *)
From Coq Require Import List String ZArith Bool.
From Verif Require Import Machine AddrModel RegModel RegSpec SysModel.
Import ListNotations.
Open Scope string_scope.
Open Scope list_scope.

(** A plain id: none of the symbols, not empty. *)
Definition plain (id : string) : Prop := id <> "" /\ id <> "?" /\ id <> "~".

(** At some moment of the execution, [P]. *)
Definition passed (factory : string -> option Z) (sched : list slabel) (P : state -> Prop) : Prop :=
  exists a b s e, sched = a ++ b /\ run (sstep factory) sinit a = Some (s, e) /\ P (reg s).

(** Node [n] holds an actor with this id; one of this type. *)
Definition holds (n id : string) (r : state) : Prop := exists nd k, aget n (nds r) = Some nd /\ aget id (n_map nd) = Some k.
Definition holds_type (n ty : string) (r : state) : Prop :=
  exists nd id k i, aget n (nds r) = Some nd /\ aget id (n_map nd) = Some k /\ nth_error (insts r) k = Some i /\ i_ty i = ty.
Definition ep_of (n : string) (ep : nat) (r : state) : Prop := exists nd, aget n (nds r) = Some nd /\ n_ep nd = ep.
(** The address book's record of an id says that it lives at [ep]. *)
Definition recorded (id : string) (ep : nat) (r : state) : Prop := exists a, aget id (ids (st r)) = Some a /\ a_ep a = ep.
(** The address book lists [a] under a type. *)
Definition listed (ty : string) (a : addr) (r : state) : Prop := In a (members (st r) ty).

Definition ends (m : nat) (e : sevent) : bool :=
  match e with EDeliver k _ _ | EUndelivered k _ _ => Nat.eqb k m | _ => false end.
Definition forwards (m : nat) (evs : list sevent) : nat :=
  List.length (filter (fun e => match e with EForward k _ _ => Nat.eqb k m | _ => false end) evs).
(** Nothing is registered or unregistered meanwhile. *)
Definition calm (l : slabel) : Prop := match l with SReg _ => False | _ => True end.
(** Every actor the address book lists under a type is there: the node at its endpoint holds
    an actor of that id and type, and the book knows the node's weight, below the largest int. *)
Definition backed (ty : string) (r : state) : Prop :=
  forall a, In a (members (st r) ty) -> exists n nd k i w, aget n (nds r) = Some nd /\ n_ep nd = a_ep a /\
    aget (a_id a) (n_map nd) = Some k /\ nth_error (insts r) k = Some i /\ i_ty i = ty /\
    fget FTotal (fields (st r) (a_node a)) = Some w /\ (w < 2 ^ 63 - 1)%Z.
(** Nodes have endpoints of their own. *)
Definition own_endpoints (r : state) : Prop :=
  forall n n' nd nd', aget n (nds r) = Some nd -> aget n' (nds r) = Some nd' -> n_ep nd = n_ep nd' -> n = n'.
